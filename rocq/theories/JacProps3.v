(** C82: how much position corrections of generic constraints and of the twist
    of joints remove. *)
From Verif Require Import Outcome BoxModel GeoModel RotSpec RotProofs RotProofs3 SupProofs JacModel JacSpec.
From Verif Require Import JacProofs JacProofs2 JacProofs3 JacProofs4 JacProofs5 JacProps.
From Verif Require RowModel JointModel.
From Coq Require Import Reals Lra Psatz.
Local Open Scope R_scope.

Notation mat_zero := (Mat vec0 vec0 vec0).
(** A body that does not rotate *)
Definition rigid_turn (b : sbody) : Prop := placed b ∧ sb_I b = mat_zero ∧ sb_Il b = mat_zero.
(** The corrected value has lost a fifth of what it was outside of a range. *)
Definition fifth_less (lo up x y : R) : Prop :=
  (lo <= x <= up → y = x) ∧ (x < lo → y - lo = 4 / 5 * (x - lo)) ∧ (lo <= x → up < x → y - up = 4 / 5 * (x - up)).

Lemma mmul_zero m n : mmul (mmul m mat_zero) n = mat_zero.
Proof. apply m_eq; apply v3_eq; unfold mmul, dot3, vec0; cbn [r0 r1 r2 vx vy vz col0 col1 col2]; unfold dot3; cbn [vx vy vz]; ring. Qed.
Lemma correct_stays c l a b b' : correct_body c l a b = Ok b' → rigid_turn b → rigid_turn b' ∧ sb_orn b' = sb_orn b.
Proof.
  intros H ([Hu Ho] & HI & Hl). pose proof (correct_ok _ _ _ _ _ H) as (_ & _ & P & _).
  unfold correct_body in H. apply bind_ok in H as (q & Hq & H). injection H as <-.
  rewrite HI, mvec_zero, scl_vec0, qspin_zero in Hq. apply qnormalize_ok in Hq as (_ & -> & _).
  rewrite (qlen_unit _ Hu), qdiv_1 in *. split; [|done]. split; [done|]. cbn [sb_I sb_Il]. rewrite Hl. split; [apply mmul_zero|done].
Qed.

(** The offset of the pivots along an axis of the constraint *)
Definition offset_along (j : joint) (A B : sbody) (i : nat) : R :=
  dot3 (sub3 (to_world (jt_pb j) (s_origin B) (sb_orn B)) (to_world (jt_pa j) (s_origin A) (sb_orn A)))
    (rotate (sb_orn A) (mcol (jt_fa j) i)).
(** The axes of the frame are normalized and orthogonal. *)
Definition good_frame (m : mat) : Prop :=
  ∀ i k, (i < 3)%nat → (k < 3)%nat → dot3 (mcol m i) (mcol m k) = if Nat.eqb i k then 1 else 0.

Lemma linear_amount d i j A B A' B' k : solve_linear d i j A B = Ok (A', B') →
  rigid_turn A → rigid_turn B → good_frame (jt_fa j) → (i < 3)%nat → (k < 3)%nat →
  rigid_turn A' ∧ rigid_turn B' ∧
  offset_along j A' B' k = offset_along j A B k -
    (if JointModel.d_enabled d && Nat.eqb i k
     then range_error (JointModel.d_min d) (JointModel.d_max d) (offset_along j A B k) / 5 else 0).
Proof.
  intros H RA RB Hf Hi Hk. unfold solve_linear in H. destruct (JointModel.d_enabled d); cbn [andb].
  - set (axis := rotate (sb_orn A) (mcol (jt_fa j) i)) in *.
    change (dot3 (sub3 (to_world (jt_pb j) (s_origin B) (sb_orn B)) (to_world (jt_pa j) (s_origin A) (sb_orn A))) axis)
      with (offset_along j A B i) in H.
    pose proof RA as (PA & IA & _). pose proof RB as (PB & IB & _).
    assert (Hd : ∀ l, (l < 3)%nat → dot3 axis (rotate (sb_orn A) (mcol (jt_fa j) l)) = if Nat.eqb i l then 1 else 0).
    { intros l Hl. unfold axis. rewrite rotate_dot by apply PA. by apply Hf. }
    assert (Hu : lsq axis = 1) by (unfold lsq; specialize (Hd i Hi); by rewrite Nat.eqb_refl in Hd).
    pose proof (pull_move _ _ _ _ _ _ _ _ (jt_pa j) (jt_pb j) H PA PB IA IB Hu) as M.
    apply solve_position_ok in H as (_ & HA & HB).
    destruct (correct_stays _ _ _ _ _ HA RA) as [RA' OA]. destruct (correct_stays _ _ _ _ _ HB RB) as [RB' OB].
    split; [done|]. split; [done|].
    set (e := range_error (JointModel.d_min d) (JointModel.d_max d) (offset_along j A B i)) in *.
    unfold offset_along at 1. rewrite OA at 2.
    assert (E : ∀ u v w x y : v3, sub3 u v = add3 (sub3 w x) y → sub3 v u = sub3 (sub3 x w) y).
    { intros u v w x y Hx. apply v3_eq; [apply (f_equal vx) in Hx|apply (f_equal vy) in Hx|apply (f_equal vz) in Hx];
        unfold sub3, add3 in *; cbn [vx vy vz] in *; lra. }
    rewrite (E _ _ _ _ _ M).
    transitivity (offset_along j A B k - e / 5 * dot3 axis (rotate (sb_orn A) (mcol (jt_fa j) k))).
    { unfold offset_along, dot3, sub3, scl. cbn [vx vy vz]. ring. }
    rewrite (Hd k Hk). destruct (Nat.eqb i k) eqn:Ei; [|ring]. apply Nat.eqb_eq in Ei as <-. fold e. ring.
  - injection H as <- <-. split; [done|]. split; [done|]. ring.
Qed.
Lemma fifth_range lo up x : fifth_less lo up x (x - range_error lo up x / 5).
Proof.
  unfold fifth_less, range_error. split; [|split].
  - intros [A B]. rewrite (proj2 (rltb_false _ _)) by lra. rewrite (proj2 (rltb_false _ _)) by lra. lra.
  - intros A. rewrite (proj2 (rltb_true _ _)) by lra. lra.
  - intros A B. rewrite (proj2 (rltb_false _ _)) by lra. rewrite (proj2 (rltb_true _ _)) by lra. lra.
Qed.

(** If the bodies do not rotate, a correction of a generic constraint takes away
    a fifth of what each limited offset exceeds its limits, and nothing of the
    others. *)
Theorem C82_generic l0 l1 l2 j A B A' B' : solve_generic l0 l1 l2 j A B = Ok (A', B') →
  rigid_turn A → rigid_turn B → good_frame (jt_fa j) →
  ∀ k, (k < 3)%nat →
    let d := match k with 0%nat => l0 | 1%nat => l1 | _ => l2 end in
    (JointModel.d_enabled d = true →
      fifth_less (JointModel.d_min d) (JointModel.d_max d) (offset_along j A B k) (offset_along j A' B' k)) ∧
    (JointModel.d_enabled d = false → offset_along j A' B' k = offset_along j A B k).
Proof.
  intros H RA RB Hf k Hk d. unfold solve_generic in H.
  apply bind_ok in H as ([A1 B1] & H1 & H). apply bind_ok in H as ([A2 B2] & H2 & H). simpl in H, H2.
  destruct (linear_amount _ _ _ _ _ _ _ k H1 RA RB Hf ltac:(lia) Hk) as (RA1 & RB1 & E1).
  destruct (linear_amount _ _ _ _ _ _ _ k H2 RA1 RB1 Hf ltac:(lia) Hk) as (RA2 & RB2 & E2).
  destruct (linear_amount _ _ _ _ _ _ _ k H RA2 RB2 Hf ltac:(lia) Hk) as (_ & _ & E3).
  unfold d. destruct k as [|[|[|]]]; [..|lia]; simpl in E1, E2, E3; rewrite ?andb_false_r, ?andb_true_r in *;
    split; intros He; rewrite He in *.
  - replace (offset_along j A' B' 0) with (offset_along j A B 0 - range_error (JointModel.d_min l0) (JointModel.d_max l0) (offset_along j A B 0) / 5) by lra.
    apply fifth_range.
  - lra.
  - replace (offset_along j A1 B1 1) with (offset_along j A B 1) in E2 by lra.
    replace (offset_along j A' B' 1) with (offset_along j A B 1 - range_error (JointModel.d_min l1) (JointModel.d_max l1) (offset_along j A B 1) / 5) by lra.
    apply fifth_range.
  - lra.
  - replace (offset_along j A2 B2 2) with (offset_along j A B 2) in E3 by lra.
    replace (offset_along j A' B' 2) with (offset_along j A B 2 - range_error (JointModel.d_min l2) (JointModel.d_max l2) (offset_along j A B 2) / 5) by lra.
    apply fifth_range.
  - lra.
Qed.

(** The twist of a CV joint: the bodies turn against each other about the axes
    so that, to first order, a fifth of the twist goes away, or of what the kept
    angle exceeds its range if it has one; then the pivots are joined. *)
Theorem C82_twist lo up angle j A B angle' A' B' :
  solve_cv lo up angle j A B = Ok (angle', (A', B')) →
  ∃ measured A1 B1 wA wB y,
    relative_angle j (sb_orn A) (sb_orn B) = Ok measured ∧
    (∃ l, 0 < l ∧ sb_orn A1 = qdiv (qadd (sb_orn A) (quat_derivative (sb_orn A) wA)) l) ∧
    (∃ l, 0 < l ∧ sb_orn B1 = qdiv (qadd (sb_orn B) (quat_derivative (sb_orn B) wB)) l) ∧
    sb_pos A1 = sb_pos A ∧ sb_pos B1 = sb_pos B ∧
    dot3 (rotate (sb_orn A) (col0 (jt_fa j))) wA - dot3 (rotate (sb_orn B) (col0 (jt_fb j))) wB = y ∧
    (lo < up → fifth_less lo up angle' (angle' - y)) ∧
    (up <= lo → y = measured / 5 ∧ angle' = angle) ∧
    solve_join (jt_pa j) (jt_pb j) A1 B1 = Ok (A', B').
Proof.
  intros H. unfold solve_cv in H. apply bind_ok in H as (m & Hm & H). apply bind_ok in H as ([A1 B1] & H1 & H).
  apply bind_ok in H as ([A2 B2] & H2 & H). simpl in H2. injection H as <- <- <-.
  destruct (solve_amount _ _ _ _ _ _ H1) as (wA & wB & X & Y & Z).
  apply solve_position_ok in H1 as (_ & HA & HB).
  pose proof (correct_ok _ _ _ _ _ HA) as (_ & PA & _). pose proof (correct_ok _ _ _ _ _ HB) as (_ & PB & _).
  cbn [jturn ja jb jc jd] in *.
  exists m, A1, B1, wA, wB. eexists. split; [done|]. split; [done|]. split; [done|].
  split; [rewrite PA; apply v3_eq; unfold add3, scl, vec0; cbn [vx vy vz]; ring|].
  split; [rewrite PB; apply v3_eq; unfold add3, scl, vec0; cbn [vx vy vz]; ring|].
  split; [|split; [|split; [|done]]].
  - transitivity ((if rltb lo up then range_error lo up (if rltb lo up then track_angle angle m else angle) else m) / 5); [|reflexivity].
    rewrite <- Z. unfold dot3, sub3, neg3, vec0. cbn [vx vy vz]. ring.
  - intros L. rewrite (proj2 (rltb_true lo up) L). apply fifth_range.
  - intros L. by rewrite (proj2 (rltb_false lo up) L).
Qed.
Print Assumptions C82_generic.
Print Assumptions C82_twist.

(** The normal impulse of a soft contact is limited by its share of the force of
    a spring and a damper, which never pull; the speed is the one along the row. *)
Theorem C79_soft_contact o x j imps dt pA pB A B c' qs q :
  prepare_joint (JointModel.KExtras o x) j imps dt pA pB A B = Ok (c', qs) → q ∈ qs →
  JointModel.o_dist o < 0 → JointModel.x_stiff x < large_scalar →
  qJ q = contact_jac j A B 0 ∧
  JointModel.q_up q = dt * Rmax 0
    ((JointModel.x_stiff x * - JointModel.o_dist o - JointModel.x_damp x * relative_speed (contact_jac j A B 0) A B)
       / JointModel.x_points x).
Proof.
  intros H Hq Hd Hs. unfold prepare_joint in H. cbn [geo_of] in H. cbn [mbind res_bind] in H.
  unfold JointModel.prepare in H. apply bind_ok in H as (r & Hr & H). injection H as _ <-.
  apply elem_of_list_singleton in Hq as ->.
  unfold JointModel.prep_extras in Hr. apply bind_ok in Hr as (q0 & H0 & Hr). apply bind_ok in Hr as (sp & _ & Hr).
  unfold JointModel.prep_contact in H0. apply bind_ok in H0 as (? & _ & H0). injection H0 as <-.
  injection Hr as <-. split; [cbn; by rewrite ?of_rj|].
  cbn. rewrite (proj2 (rltb_true _ _) Hd), (proj2 (rltb_true _ _) Hs). cbn.
  assert (Es : contact_speed j A B = relative_speed (contact_jac j A B 0) A B).
  { unfold contact_speed, relative_speed, contact_jac, jpull, contact_dir, point_velocity.
    cbn [ja jb jc jd]. unfold dot3, cross3, sub3, add3, neg3. cbn [vx vy vz]. ring. }
  rewrite Es. set (p := JointModel.o_dist o) in *. set (k := JointModel.x_stiff x) in *.
  replace (- p * k / JointModel.x_points x + - relative_speed (contact_jac j A B 0) A B * JointModel.x_damp x / JointModel.x_points x)
    with ((k * - p - JointModel.x_damp x * relative_speed (contact_jac j A B 0) A B) / JointModel.x_points x)
    by (unfold Rdiv; ring).
  rewrite Rmult_comm. f_equal. unfold RowModel.fmax. cbn. unfold Rmax.
  match goal with |- context [rltb ?a ?b] => pose proof (rltb_true a b) as T; pose proof (rltb_false a b) as F; destruct (rltb a b) end;
    destruct Rle_dec; try lra.
  all: try (assert (false = true ↔ _) by exact T); lra.
Qed.
Print Assumptions C79_soft_contact.
Example C82_case_frame : good_frame mid ∧ rigid_turn (SBody None vec0 vec0 qid 1 mat_zero mat_zero).
Proof.
  split.
  - intros i k Hi Hk. destruct i as [|[|[|]]]; [..|lia]; (destruct k as [|[|[|]]]; [..|lia]);
      unfold mcol, dot3, mid; simpl; ring.
  - split; [split; [unfold qlsq, qid; simpl; ring|done]|done].
Qed.
Example C79_case_soft : ∃ c' qs, prepare_joint
  (JointModel.KExtras (JointModel.ContactCfg (N := Rnum) (-1) 0) (JointModel.ExtrasCfg (N := Rnum) 1 100 10 0 0))
  (simple_joint (neg3 ey) ey mid 0) [] (1 / 10) (Some 0%nat) (Some 1%nat) (ball vec0 (neg3 ey) vec0) (ball vec0 vec0 vec0) = Ok (c', qs)
  ∧ length qs = 1%nat ∧ (-1) < 0 ∧ 100 < large_scalar.
Proof.
  unfold prepare_joint. cbn [geo_of mbind res_bind]. unfold JointModel.prepare, JointModel.prep_extras, JointModel.prep_contact.
  match goal with |- context [mbind _ (if ?a then _ else Ok None)] => assert (a = false) as -> end.
  { apply rltb_false. cbn. lra. }
  match goal with |- context [assert_ ?a] => assert (assert_ a = Ok ()) as -> end.
  { assert (∀ b, b = true → assert_ b = Ok ()) as E by (by intros ? ->). apply E.
    apply rltb_true. cbn. unfold eps. lra. }
  cbn [mbind res_bind]. eexists _, _. split; [reflexivity|]. split; [done|]. split; [lra|]. unfold large_scalar. lra.
Qed.
