(** Rates: rows measure how fast the quantity they control changes. *)
From Verif Require Import Outcome BoxModel GeoModel RotSpec RotProofs SupProofs ColProofs JacModel JacSpec JacProofs.
From Coq Require Import Reals Lra Psatz.
Local Open Scope R_scope.

Lemma rate_const (c : v3) t : rate3 (λ _, c) t vec0.
Proof. repeat split; apply derivable_pt_lim_const. Qed.
Lemma rate_add f g t u v : rate3 f t u → rate3 g t v → rate3 (λ s, add3 (f s) (g s)) t (add3 u v).
Proof.
  intros (Hx&Hy&Hz) (Gx&Gy&Gz). repeat split; cbn [add3 vx vy vz].
  - apply (derivable_pt_lim_plus (λ s, vx (f s)) (λ s, vx (g s))); done.
  - apply (derivable_pt_lim_plus (λ s, vy (f s)) (λ s, vy (g s))); done.
  - apply (derivable_pt_lim_plus (λ s, vz (f s)) (λ s, vz (g s))); done.
Qed.
Lemma rate_sub f g t u v : rate3 f t u → rate3 g t v → rate3 (λ s, sub3 (f s) (g s)) t (sub3 u v).
Proof.
  intros (Hx&Hy&Hz) (Gx&Gy&Gz). repeat split; cbn [sub3 vx vy vz].
  - apply (derivable_pt_lim_minus (λ s, vx (f s)) (λ s, vx (g s))); done.
  - apply (derivable_pt_lim_minus (λ s, vy (f s)) (λ s, vy (g s))); done.
  - apply (derivable_pt_lim_minus (λ s, vz (f s)) (λ s, vz (g s))); done.
Qed.
Lemma dlim_eq f t a b : derivable_pt_lim f t a → a = b → derivable_pt_lim f t b.
Proof. by intros ? <-. Qed.
Lemma dlim_ext f g t a : (∀ s, f s = g s) → derivable_pt_lim f t a → derivable_pt_lim g t a.
Proof.
  intros E H e He. destruct (H e He) as [d Hd]. exists d. intros h Hh Hlt. rewrite <- !E. by apply Hd.
Qed.
Lemma rate_ext f g t a : (∀ s, f s = g s) → rate3 f t a → rate3 g t a.
Proof.
  intros E (H1&H2&H3). repeat split; (eapply dlim_ext; [intros s; by rewrite <- E|done]).
Qed.
Lemma rate_dot f g t u v :
  rate3 f t u → rate3 g t v →
  derivable_pt_lim (λ s, dot3 (f s) (g s)) t (dot3 u (g t) + dot3 (f t) v).
Proof.
  intros (Hx&Hy&Hz) (Gx&Gy&Gz). unfold dot3.
  eapply dlim_eq.
  - apply (derivable_pt_lim_plus (λ s, vx (f s) * vx (g s) + vy (f s) * vy (g s)) (λ s, vz (f s) * vz (g s))).
    + apply (derivable_pt_lim_plus (λ s, vx (f s) * vx (g s)) (λ s, vy (f s) * vy (g s))).
      * apply (derivable_pt_lim_mult (λ s, vx (f s)) (λ s, vx (g s))); done.
      * apply (derivable_pt_lim_mult (λ s, vy (f s)) (λ s, vy (g s))); done.
    + apply (derivable_pt_lim_mult (λ s, vz (f s)) (λ s, vz (g s))); done.
  - ring.
Qed.
Lemma rate_len f t u :
  rate3 f t u → 0 < lsq (f t) → derivable_pt_lim (λ s, len (f s)) t (dot3 (div3 (f t) (len (f t))) u).
Proof.
  intros H Hp. unfold len. eapply dlim_eq.
  - apply (derivable_pt_lim_comp (λ s, dot3 (f s) (f s)) sqrt).
    + by apply rate_dot.
    + by apply derivable_pt_lim_sqrt.
  - fold (lsq (f t)). fold (len (f t)). assert (0 < len (f t)) by (apply sqrt_lt_R0; done).
    unfold dot3, div3. cbn [vx vy vz]. field. lra.
Qed.

(** * Bodies in motion *)
Section rates.
Context (mA mB : motion) (t : R) (A B : cbody) (j : joint).
Context (HA : on_motion mA t A) (HB : on_motion mB t B).

Lemma rate_rotA v : rate3 (λ s, rotate (cb_orn (body_at mA A s)) v) t (cross3 (cb_ang A) (rotate (cb_orn A) v)).
Proof. destruct HA as (_ & _ & _ & H). apply H. Qed.
Lemma rate_rotB v : rate3 (λ s, rotate (cb_orn (body_at mB B s)) v) t (cross3 (cb_ang B) (rotate (cb_orn B) v)).
Proof. destruct HB as (_ & _ & _ & H). apply H. Qed.
Lemma rate_posA : rate3 (λ s, cb_pos (body_at mA A s)) t (cb_lin A).
Proof. destruct HA as (_ & H & _ & _). apply H. Qed.
Lemma rate_posB : rate3 (λ s, cb_pos (body_at mB B s)) t (cb_lin B).
Proof. destruct HB as (_ & H & _ & _). apply H. Qed.
Lemma atA : body_at mA A t = A.
Proof. destruct HA as (H & _). done. Qed.
Lemma atB : body_at mB B t = B.
Proof. destruct HB as (H & _). done. Qed.

Lemma rate_pivotA : rate3 (λ s, pivot_a j (body_at mA A s)) t (point_velocity A (arm_a j A)).
Proof.
  destruct HA as (Hat & Hp & Hu & Hr).
  eapply (rate_ext (λ s, add3 (mo_pos mA s)
     (add3 (rotate (mo_orn mA s) (neg3 (mo_com mA))) (rotate (mo_orn mA s) (jt_pa j))))).
  { intros s. unfold pivot_a, body_at, to_world. cbn [cb_origin cb_orn].
    apply v3_eq; unfold add3; cbn [vx vy vz]; ring. }
  assert (Harm : arm_a j A = add3 (rotate (cb_orn A) (neg3 (mo_com mA))) (rotate (cb_orn A) (jt_pa j))).
  { rewrite Hat. unfold arm_a, pivot_a, body_at, to_world. cbn [cb_origin cb_orn cb_pos].
    apply v3_eq; unfold add3, sub3; cbn [vx vy vz]; ring. }
  unfold point_velocity. rewrite Harm.
  replace (cross3 (cb_ang A) (add3 (rotate (cb_orn A) (neg3 (mo_com mA))) (rotate (cb_orn A) (jt_pa j))))
    with (add3 (cross3 (cb_ang A) (rotate (cb_orn A) (neg3 (mo_com mA))))
               (cross3 (cb_ang A) (rotate (cb_orn A) (jt_pa j)))).
  2: { apply v3_eq; unfold add3, cross3; cbn [vx vy vz]; ring. }
  apply rate_add; [done|]. apply rate_add; apply Hr.
Qed.
Lemma rate_pivotB : rate3 (λ s, pivot_b j (body_at mB B s)) t (point_velocity B (arm_b j B)).
Proof.
  destruct HB as (Hat & Hp & Hu & Hr).
  eapply (rate_ext (λ s, add3 (mo_pos mB s)
     (add3 (rotate (mo_orn mB s) (neg3 (mo_com mB))) (rotate (mo_orn mB s) (jt_pb j))))).
  { intros s. unfold pivot_b, body_at, to_world. cbn [cb_origin cb_orn].
    apply v3_eq; unfold add3; cbn [vx vy vz]; ring. }
  assert (Harm : arm_b j B = add3 (rotate (cb_orn B) (neg3 (mo_com mB))) (rotate (cb_orn B) (jt_pb j))).
  { rewrite Hat. unfold arm_b, pivot_b, body_at, to_world. cbn [cb_origin cb_orn cb_pos].
    apply v3_eq; unfold add3, sub3; cbn [vx vy vz]; ring. }
  unfold point_velocity. rewrite Harm.
  replace (cross3 (cb_ang B) (add3 (rotate (cb_orn B) (neg3 (mo_com mB))) (rotate (cb_orn B) (jt_pb j))))
    with (add3 (cross3 (cb_ang B) (rotate (cb_orn B) (neg3 (mo_com mB))))
               (cross3 (cb_ang B) (rotate (cb_orn B) (jt_pb j)))).
  2: { apply v3_eq; unfold add3, cross3; cbn [vx vy vz]; ring. }
  apply rate_add; [done|]. apply rate_add; apply Hr.
Qed.

Definition pivot_speed : v3 := sub3 (point_velocity A (arm_a j A)) (point_velocity B (arm_b j B)).
Lemma rate_gap : rate3 (λ s, sub3 (pivot_a j (body_at mA A s)) (pivot_b j (body_at mB B s))) t pivot_speed.
Proof. apply rate_sub; [apply rate_pivotA|apply rate_pivotB]. Qed.
Lemma pull_speed d : relative_speed (jpull (arm_a j A) (arm_b j B) d) A B = dot3 pivot_speed d.
Proof.
  unfold relative_speed, pivot_speed, point_velocity, jpull. cbn [ja jb jc jd].
  unfold dot3, cross3, sub3, add3, neg3; cbn [vx vy vz]; ring.
Qed.
Lemma turn_speed a b : relative_speed (jturn a b) A B = dot3 a (cb_ang A) - dot3 b (cb_ang B).
Proof.
  unfold relative_speed, jturn. cbn [ja jb jc jd]. unfold dot3, neg3, vec0; cbn [vx vy vz]; ring.
Qed.

Lemma gravity_rate :
  eps < dsq (cb_pos A) (cb_pos B) →
  rate_of (λ A B, GeoModel.dist (cb_pos A) (cb_pos B)) mA mB A B t (relative_speed (gravity_jac A B) A B).
Proof.
  intros He. unfold dsq in He. unfold rate_of, GeoModel.dist.
  assert (Hpos := eps_pos). rewrite <- atA in He. rewrite <- atB in He.
  eapply dlim_eq.
  - apply (rate_len (λ s, sub3 (cb_pos (body_at mA A s)) (cb_pos (body_at mB B s))) t).
    + apply rate_sub; [apply rate_posA|apply rate_posB].
    + lra.
  - cbv beta. rewrite atA, atB in *. unfold gravity_jac, relative_speed. cbn [ja jb jc jd].
    rewrite Rmax_left by lra. fold (len (sub3 (cb_pos A) (cb_pos B))).
    generalize (div3 (sub3 (cb_pos A) (cb_pos B)) (len (sub3 (cb_pos A) (cb_pos B)))). intros d.
    unfold dot3, sub3, neg3, vec0; cbn [vx vy vz]; ring.
Qed.
Lemma distance_rate D :
  eps < dsq (pivot_a j A) (pivot_b j B) →
  rate_of (λ A B, 1 / 2 * (dsq (pivot_a j A) (pivot_b j B) - D * D)) mA mB A B t
    (relative_speed (distance_jac j A B) A B).
Proof.
  intros He. unfold dsq in *. unfold rate_of.
  eapply dlim_eq.
  - apply derivable_pt_lim_scal. apply derivable_pt_lim_minus; [|apply derivable_pt_lim_const].
    unfold lsq. apply (rate_dot (λ s, sub3 (pivot_a j (body_at mA A s)) (pivot_b j (body_at mB B s)))
                         (λ s, sub3 (pivot_a j (body_at mA A s)) (pivot_b j (body_at mB B s)))); apply rate_gap.
  - cbv beta. rewrite atA, atB. unfold distance_jac. apply rltb_true in He. rewrite He, pull_speed.
    unfold dot3. field.
Qed.
Lemma soft_rate :
  eps < dsq (pivot_a j A) (pivot_b j B) →
  rate_of (λ A B, GeoModel.dist (pivot_a j A) (pivot_b j B)) mA mB A B t
    (relative_speed (soft_jac j A B) A B).
Proof.
  intros He. unfold dsq in He. unfold rate_of, GeoModel.dist.
  assert (Hpos := eps_pos). pose proof He as He'. rewrite <- atA in He'. rewrite <- atB in He'.
  eapply dlim_eq.
  - apply (rate_len (λ s, sub3 (pivot_a j (body_at mA A s)) (pivot_b j (body_at mB B s))) t).
    + apply rate_gap.
    + lra.
  - cbv beta. rewrite atA, atB. unfold soft_jac. apply rltb_true in He. rewrite He, pull_speed.
    apply dot_comm.
Qed.
Lemma fixed_rate d :
  rate_of (λ A B, dot3 (sub3 (pivot_a j A) (pivot_b j B)) d) mA mB A B t
    (relative_speed (jpull (arm_a j A) (arm_b j B) d) A B).
Proof.
  unfold rate_of. eapply dlim_eq.
  - apply (rate_dot (λ s, sub3 (pivot_a j (body_at mA A s)) (pivot_b j (body_at mB B s))) (λ _, d) t pivot_speed vec0).
    + apply rate_gap.
    + apply rate_const.
  - rewrite pull_speed. unfold dot3, vec0; cbn [vx vy vz]. ring.
Qed.
Lemma pivot_rate i :
  rate_of (λ A B, dot3 (sub3 (pivot_a j A) (pivot_b j B)) (mrow mid i)) mA mB A B t
    (relative_speed (pivot_jac j A B i) A B).
Proof. rewrite pivot_jac_pull. apply fixed_rate. Qed.

(** A direction that turns with A or with B. *)
Lemma turningA_rate v :
  rate_of (λ A B, dot3 (sub3 (pivot_a j A) (pivot_b j B)) (rotate (cb_orn A) v)) mA mB A B t
    (relative_speed (jpull (arm_a j A) (arm_b j B) (rotate (cb_orn A) v)) A B
     + dot3 (cb_ang A) (cross3 (rotate (cb_orn A) v) (sub3 (pivot_a j A) (pivot_b j B)))).
Proof.
  unfold rate_of. eapply dlim_eq.
  - apply (rate_dot (λ s, sub3 (pivot_a j (body_at mA A s)) (pivot_b j (body_at mB B s)))
             (λ s, rotate (cb_orn (body_at mA A s)) v) t).
    + apply rate_gap.
    + apply rate_rotA.
  - rewrite pull_speed. cbv beta. rewrite atA, atB. unfold dot3, cross3; cbn [vx vy vz]. ring.
Qed.
Lemma turningB_rate v :
  rate_of (λ A B, dot3 (sub3 (pivot_a j A) (pivot_b j B)) (rotate (cb_orn B) v)) mA mB A B t
    (relative_speed (jpull (arm_a j A) (arm_b j B) (rotate (cb_orn B) v)) A B
     + dot3 (cb_ang B) (cross3 (rotate (cb_orn B) v) (sub3 (pivot_a j A) (pivot_b j B)))).
Proof.
  unfold rate_of. eapply dlim_eq.
  - apply (rate_dot (λ s, sub3 (pivot_a j (body_at mA A s)) (pivot_b j (body_at mB B s)))
             (λ s, rotate (cb_orn (body_at mB B s)) v) t).
    + apply rate_gap.
    + apply rate_rotB.
  - rewrite pull_speed. cbv beta. rewrite atA, atB. unfold dot3, cross3; cbn [vx vy vz]. ring.
Qed.
Lemma linear_rate i :
  rate_of (λ A B, linear_offset j A B i) mA mB A B t
    (- relative_speed (linear_jac j A B i) A B
     + dot3 (cb_ang A) (cross3 (linear_axis j A i) (sub3 (pivot_b j B) (pivot_a j A)))).
Proof.
  unfold rate_of, linear_offset, linear_axis.
  eapply (dlim_ext (λ s, - dot3 (sub3 (pivot_a j (body_at mA A s)) (pivot_b j (body_at mB B s)))
                            (rotate (cb_orn (body_at mA A s)) (mcol (jt_fa j) i)))).
  { intros s. unfold dot3, sub3; cbn [vx vy vz]. ring. }
  eapply dlim_eq.
  - apply (derivable_pt_lim_opp (λ s, dot3 (sub3 (pivot_a j (body_at mA A s)) (pivot_b j (body_at mB B s)))
                            (rotate (cb_orn (body_at mA A s)) (mcol (jt_fa j) i)))).
    apply turningA_rate.
  - unfold linear_jac, linear_axis. unfold dot3, cross3, sub3; cbn [vx vy vz]. ring.
Qed.

(** Vectors fixed to the two bodies. *)
Lemma axes_rate u v :
  rate_of (λ A B, dot3 (rotate (cb_orn A) u) (rotate (cb_orn B) v)) mA mB A B t
    (dot3 (sub3 (cb_ang A) (cb_ang B)) (cross3 (rotate (cb_orn A) u) (rotate (cb_orn B) v))).
Proof.
  unfold rate_of. eapply dlim_eq.
  - apply (rate_dot (λ s, rotate (cb_orn (body_at mA A s)) u) (λ s, rotate (cb_orn (body_at mB B s)) v) t).
    + apply rate_rotA.
    + apply rate_rotB.
  - cbv beta. rewrite atA, atB. unfold dot3, cross3, sub3; cbn [vx vy vz]. ring.
Qed.
End rates.

(** * Turning about an axis *)
Lemma unit_rotate q v : qlsq q = 1 → unit3 v → unit3 (rotate q v).
Proof. intros Hq Hv. unfold unit3. by rewrite rotate_dot. Qed.
Lemma along_unit (a w : v3) : unit3 a → cross3 a w = vec0 → w = scl (dot3 a w) a.
Proof.
  unfold unit3. intros Ha Hw.
  assert (H : cross3 a (cross3 a w) = sub3 (scl (dot3 a w) a) (scl (dot3 a a) w)).
  { apply v3_eq; unfold cross3, sub3, scl, dot3; cbn [vx vy vz]; ring. }
  rewrite Hw, Ha in H.
  assert (Hx := f_equal vx H). assert (Hy := f_equal vy H). assert (Hz := f_equal vz H).
  revert Hx Hy Hz. unfold cross3, sub3, scl, vec0. cbn [vx vy vz]. intros Hx Hy Hz.
  apply v3_eq; cbn [vx vy vz]; lra.
Qed.
Lemma plane_cross (a p q b : v3) :
  unit3 a → cross3 a p = q → cross3 p q = a → cross3 q a = p → dot3 a b = 0 →
  cross3 p b = scl (dot3 q b) a ∧ cross3 q b = scl (- dot3 p b) a.
Proof.
  intros Ha H1 H2 H3 Hb.
  assert (Hap : dot3 a p = 0).
  { rewrite <- H2 at 1. unfold dot3, cross3; cbn [vx vy vz]; ring. }
  assert (Haq : dot3 a q = 0).
  { rewrite <- H1. unfold dot3, cross3; cbn [vx vy vz]; ring. }
  assert (T : ∀ u, dot3 a u = 0 → cross3 a (cross3 u b) = vec0).
  { intros u Hu. transitivity (sub3 (scl (dot3 a b) u) (scl (dot3 a u) b)).
    { apply v3_eq; unfold cross3, sub3, scl, dot3; cbn [vx vy vz]; ring. }
    rewrite Hb, Hu. apply v3_eq; unfold sub3, scl, vec0; cbn [vx vy vz]; ring. }
  split.
  - rewrite (along_unit a (cross3 p b) Ha (T p Hap)). f_equal.
    rewrite <- H1. unfold dot3, cross3; cbn [vx vy vz]; ring.
  - rewrite (along_unit a (cross3 q b) Ha (T q Haq)). f_equal.
    rewrite <- H3. unfold dot3, cross3; cbn [vx vy vz]; ring.
Qed.

Section turns.
Context (mA mB : motion) (t : R) (A B : cbody) (j : joint).
Context (HA : on_motion mA t A) (HB : on_motion mB t B).
Context (Hfa : frame_ok (jt_fa j)) (Hfb : frame_ok (jt_fb j)).

Lemma unitA : qlsq (cb_orn A) = 1.
Proof. destruct HA as (Hat & _ & Hu & _). rewrite Hat. apply Hu. Qed.
Lemma unitB : qlsq (cb_orn B) = 1.
Proof. destruct HB as (Hat & _ & Hu & _). rewrite Hat. apply Hu. Qed.

Lemma hinge_frame :
  unit3 (axis_a j A) ∧ cross3 (axis_a j A) (hinge_p j A) = hinge_q j A ∧
  cross3 (hinge_p j A) (hinge_q j A) = axis_a j A ∧ cross3 (hinge_q j A) (axis_a j A) = hinge_p j A.
Proof.
  destruct Hfa as (H0 & H1 & H2 & H3 & H4 & H5). unfold axis_a, hinge_p, hinge_q.
  pose proof unitA as Hu.
  rewrite <- !rotate_cross by done. rewrite H3, H4, H5. repeat split; try done. by apply unit_rotate.
Qed.

(** The hinge rows: the tilt of the axis of B out of the axis of A. *)
Lemma hinge_tilt_rates :
  axis_b j B = axis_a j A →
  rate_of (λ A B, dot3 (hinge_p j A) (axis_b j B)) mA mB A B t
    (- relative_speed (jturn (hinge_q j A) (hinge_q j A)) A B) ∧
  rate_of (λ A B, dot3 (hinge_q j A) (axis_b j B)) mA mB A B t
    (relative_speed (jturn (hinge_p j A) (hinge_p j A)) A B).
Proof.
  intros Hal. destruct hinge_frame as (Hu & H1 & H2 & H3). rewrite !turn_speed.
  assert (Hpa : cross3 (hinge_p j A) (axis_b j B) = neg3 (hinge_q j A)).
  { rewrite Hal, <- H1. apply v3_eq; unfold cross3, neg3; cbn [vx vy vz]; ring. }
  assert (Hqa : cross3 (hinge_q j A) (axis_b j B) = hinge_p j A) by (by rewrite Hal).
  split.
  - eapply dlim_eq; [apply (axes_rate mA mB t A B HA HB (col1 (jt_fa j)) (col0 (jt_fb j)))|].
    fold (hinge_p j A) (axis_b j B). rewrite Hpa. unfold dot3, sub3, neg3; cbn [vx vy vz]; ring.
  - eapply dlim_eq; [apply (axes_rate mA mB t A B HA HB (col2 (jt_fa j)) (col0 (jt_fb j)))|].
    fold (hinge_q j A) (axis_b j B). rewrite Hqa. unfold dot3, sub3; cbn [vx vy vz]; ring.
Qed.

(** The angle of a hinge: the direction in which B points, seen from A. *)
Lemma hinge_turn_rates :
  axis_b j B = axis_a j A →
  rate_of (λ A B, dot3 (hinge_p j A) (rotate (cb_orn B) (col1 (jt_fb j)))) mA mB A B t
    (relative_speed (jturn (axis_a j A) (axis_a j A)) A B
     * dot3 (hinge_q j A) (rotate (cb_orn B) (col1 (jt_fb j)))) ∧
  rate_of (λ A B, dot3 (hinge_q j A) (rotate (cb_orn B) (col1 (jt_fb j)))) mA mB A B t
    (- relative_speed (jturn (axis_a j A) (axis_a j A)) A B
     * dot3 (hinge_p j A) (rotate (cb_orn B) (col1 (jt_fb j)))).
Proof.
  intros Hal. destruct hinge_frame as (Hu & H1 & H2 & H3). rewrite !turn_speed.
  set (b := rotate (cb_orn B) (col1 (jt_fb j))).
  assert (Hb : dot3 (axis_a j A) b = 0).
  { rewrite <- Hal. subst b. unfold axis_b. rewrite rotate_dot by apply unitB.
    destruct Hfb as (_ & _ & _ & _ & G & _). rewrite <- G.
    unfold dot3, cross3; cbn [vx vy vz]; ring. }
  destruct (plane_cross _ _ _ _ Hu H1 H2 H3 Hb) as [Hp Hq].
  split.
  - eapply dlim_eq; [apply (axes_rate mA mB t A B HA HB (col1 (jt_fa j)) (col1 (jt_fb j)))|].
    fold (hinge_p j A) b. rewrite Hp. generalize (dot3 (hinge_q j A) b). intros y.
    unfold dot3, sub3, scl; cbn [vx vy vz]; ring.
  - eapply dlim_eq; [apply (axes_rate mA mB t A B HA HB (col2 (jt_fa j)) (col1 (jt_fb j)))|].
    fold (hinge_q j A) b. rewrite Hq. generalize (dot3 (hinge_p j A) b). intros x.
    unfold dot3, sub3, scl; cbn [vx vy vz]; ring.
Qed.

(** The two swing angles of a generic constraint. *)
Lemma unit_col k : unit3 (mcol (jt_fa j) k).
Proof. destruct Hfa as (H0 & H1 & H2 & _). destruct k as [|[|k]]; done. Qed.
Lemma unit_dot_range (u v : v3) : unit3 u → unit3 v → -1 <= dot3 u v <= 1.
Proof.
  unfold unit3. intros Hu Hv.
  assert (dot3 u v * dot3 u v <= 1).
  { pose proof (lsq_nonneg (cross3 u v)) as H. unfold lsq in H.
    assert (dot3 (cross3 u v) (cross3 u v) = dot3 u u * dot3 v v - dot3 u v * dot3 u v) as E.
    { unfold dot3, cross3; cbn [vx vy vz]; ring. }
    rewrite E, Hu, Hv in H. lra. }
  nra.
Qed.
Lemma unit_cross_lsq (u v : v3) : unit3 u → unit3 v → lsq (cross3 u v) = 1 - dot3 u v * dot3 u v.
Proof.
  unfold unit3. intros Hu Hv.
  transitivity (dot3 u u * dot3 v v - dot3 u v * dot3 u v).
  { unfold lsq, dot3, cross3; cbn [vx vy vz]; ring. }
  rewrite Hu, Hv. ring.
Qed.
Lemma swing_rate i :
  tiny < lsq (cross3 (other_axis j A i) (axis_b j B)) →
  rate_of (λ A B, swing_angle j A B i) mA mB A B t
    (- relative_speed (swing_jac j A B i) A B).
Proof.
  intros Ht. pose proof tiny_pos as Hpos.
  set (k := if Nat.eqb i 1 then 2%nat else 1%nat).
  assert (Huo : unit3 (other_axis j A i)).
  { apply unit_rotate; [apply unitA|apply unit_col]. }
  assert (Hub : unit3 (axis_b j B)).
  { apply unit_rotate; [apply unitB|]. by destruct Hfb. }
  set (c := dot3 (other_axis j A i) (axis_b j B)).
  assert (Hl : lsq (cross3 (other_axis j A i) (axis_b j B)) = 1 - c * c) by by apply unit_cross_lsq.
  assert (Hc : -1 < c < 1) by nra.
  unfold rate_of.
  eapply (dlim_ext (λ s, PI / 2 - acos (dot3 (other_axis j (body_at mA A s) i) (axis_b j (body_at mB B s))))).
  { intros s. unfold swing_angle. f_equal. f_equal.
    assert (Hr : -1 <= dot3 (other_axis j (body_at mA A s) i) (axis_b j (body_at mB B s)) <= 1).
    { apply unit_dot_range; (apply unit_rotate; [|first [apply unit_col | by destruct Hfb]]).
      - destruct HA as (_ & _ & H & _). apply H.
      - destruct HB as (_ & _ & H & _). apply H. }
    rewrite (dot_comm (axis_b _ _)). rewrite Rmin_right by lra. rewrite Rmax_right by lra. done. }
  eapply dlim_eq.
  - apply (derivable_pt_lim_minus (λ _, PI / 2)
      (λ s, acos (dot3 (other_axis j (body_at mA A s) i) (axis_b j (body_at mB B s))))).
    { apply derivable_pt_lim_const. }
    apply (derivable_pt_lim_comp
      (λ s, dot3 (other_axis j (body_at mA A s) i) (axis_b j (body_at mB B s))) acos).
    + apply (axes_rate mA mB t A B HA HB (mcol (jt_fa j) k) (col0 (jt_fb j))).
    + cbv beta. rewrite (atA mA t A HA), (atB mB t B HB). fold c.
      exact (proj1 (derive_pt_eq acos c _ (derivable_pt_acos c Hc)) (derive_pt_acos c Hc)).
  - fold k. unfold swing_jac. rewrite turn_speed. unfold swing_axis, try_normalize.
    destruct (Rlt_dec tiny _) as [_|]; [|done]. rewrite Hl.
    replace (c²) with (c * c) by done.
    assert (0 < sqrt (1 - c * c)) by (apply sqrt_lt_R0; nra).
    unfold other_axis, axis_b. fold k.
    generalize (cross3 (rotate (cb_orn A) (mcol (jt_fa j) k)) (rotate (cb_orn B) (col0 (jt_fb j)))). intros w.
    unfold dot3, sub3, neg3, scl; cbn [vx vy vz]. field. lra.
Qed.
End turns.

(** * Orientations that change as the code integrates them *)
Lemma rate_cross f g t u v :
  rate3 f t u → rate3 g t v →
  rate3 (λ s, cross3 (f s) (g s)) t (add3 (cross3 u (g t)) (cross3 (f t) v)).
Proof.
  intros (Hx&Hy&Hz) (Gx&Gy&Gz).
  assert (M : ∀ a b a' b' : R → R, ∀ da db da' db',
    derivable_pt_lim a t da → derivable_pt_lim b t db → derivable_pt_lim a' t da' → derivable_pt_lim b' t db' →
    derivable_pt_lim (λ s, a s * b s - a' s * b' s) t ((da * b t + a t * db) - (da' * b' t + a' t * db'))).
  { intros a b a' b' da db da' db' H1 H2 H3 H4.
    apply (derivable_pt_lim_minus (λ s, a s * b s) (λ s, a' s * b' s)).
    - by apply (derivable_pt_lim_mult a b).
    - by apply (derivable_pt_lim_mult a' b'). }
  repeat split; cbn [cross3 add3 vx vy vz]; eapply dlim_eq.
  - apply (M (λ s, vy (f s)) (λ s, vz (g s)) (λ s, vz (f s)) (λ s, vy (g s))); eassumption.
  - ring.
  - apply (M (λ s, vz (f s)) (λ s, vx (g s)) (λ s, vx (f s)) (λ s, vz (g s))); eassumption.
  - ring.
  - apply (M (λ s, vx (f s)) (λ s, vy (g s)) (λ s, vy (f s)) (λ s, vx (g s))); eassumption.
  - ring.
Qed.
Lemma quat_spin (q : R → quat) (t : R) (w : v3) :
  qlsq (q t) = 1 →
  derivable_pt_lim (λ s, qx (q s)) t (qx (quat_derivative (q t) w)) →
  derivable_pt_lim (λ s, qy (q s)) t (qy (quat_derivative (q t) w)) →
  derivable_pt_lim (λ s, qz (q s)) t (qz (quat_derivative (q t) w)) →
  derivable_pt_lim (λ s, qw (q s)) t (qw (quat_derivative (q t) w)) →
  ∀ v, rate3 (λ s, rotate (q s) v) t (cross3 w (rotate (q t) v)).
Proof.
  intros Hu Hx Hy Hz Hw v. unfold rotate.
  set (r := λ s, V3 (qx (q s)) (qy (q s)) (qz (q s))).
  set (dq := quat_derivative (q t) w).
  assert (Hr : rate3 r t (V3 (qx dq) (qy dq) (qz dq))) by done.
  assert (Hr2 : rate3 (λ s, scl 2 (r s)) t (scl 2 (V3 (qx dq) (qy dq) (qz dq)))).
  { destruct Hr as (?&?&?). repeat split; cbn [scl vx vy vz]; by apply derivable_pt_lim_scal. }
  assert (Hwv : rate3 (λ s, scl (qw (q s)) v) t (scl (qw dq) v)).
  { assert (K : ∀ k, derivable_pt_lim (λ s, qw (q s) * k) t (qw dq * k)).
    { intros k. eapply dlim_eq.
      - apply (derivable_pt_lim_mult (λ s, qw (q s)) (λ _, k)); [exact Hw|apply derivable_pt_lim_const].
      - cbv beta. fold dq. ring. }
    repeat split; cbn [scl vx vy vz]; apply K. }
  assert (Hin : rate3 (λ s, add3 (cross3 (r s) v) (scl (qw (q s)) v)) t
     (add3 (add3 (cross3 (V3 (qx dq) (qy dq) (qz dq)) v) (cross3 (r t) vec0)) (scl (qw dq) v))).
  { apply rate_add; [|done]. apply (rate_cross r (λ _, v)); [done|apply rate_const]. }
  assert (Hout := rate_add _ _ _ _ _ (rate_const v t) (rate_cross _ _ _ _ _ Hr2 Hin)).
  eapply rate_ext in Hout; [|intros s; cbv beta; reflexivity].
  match type of Hout with rate3 _ _ ?d => assert (E : d = cross3 w (rotate (q t) v)) end.
  2: { change (rate3 (λ s, rotate (q s) v) t (cross3 w (rotate (q t) v))). rewrite <- E. exact Hout. }
  clear -Hu. subst r dq. cbv beta. unfold rotate, quat_derivative, qscale, qmul.
  destruct (q t) as [a b c d]. destruct w as [w1 w2 w3], v as [v1 v2 v3].
  unfold qlsq in Hu. cbn [qx qy qz qw] in *.
  assert (Hz : a * a + b * b + c * c + d * d - 1 = 0) by lra.
  apply v3_eq; unfold add3, cross3, scl, vec0; cbn [vx vy vz qx qy qz qw].
  - apply Rminus_diag_uniq. transitivity ((a * a + b * b + c * c + d * d - 1) * (w2 * v3 - w3 * v2)); [field|rewrite Hz; ring].
  - apply Rminus_diag_uniq. transitivity ((a * a + b * b + c * c + d * d - 1) * (w3 * v1 - w1 * v3)); [field|rewrite Hz; ring].
  - apply Rminus_diag_uniq. transitivity ((a * a + b * b + c * c + d * d - 1) * (w1 * v2 - w2 * v1)); [field|rewrite Hz; ring].
Qed.
