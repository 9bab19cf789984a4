(** Position corrections. *)
From Verif Require Import Outcome BoxModel GeoModel RotSpec RotProofs RotProofs3 SupProofs JacModel JacSpec.
From Verif Require Import JacProofs JacProofs2 JacProofs3.
From Verif Require RowModel JointModel.
From Coq Require Import Reals Lra Psatz.
Local Open Scope R_scope.

Lemma qnormalize_ok q r : qnormalize q = Ok r → 0 < qlen q ∧ r = qdiv q (qlen q) ∧ qlsq r = 1.
Proof.
  unfold qnormalize. intros H. apply bind_ok in H as (? & Ha & H). injection H as <-.
  unfold assert_ in Ha. pose proof eps_pos. pose proof (rltb_true eps (qlen q)).
  destruct (rltb eps (qlen q)); [|done]. assert (eps < qlen q) by tauto.
  split; [lra|]. split; [done|]. apply qdiv_unit. lra.
Qed.
Lemma qspin_zero q : qadd q (quat_derivative q vec0) = q.
Proof.
  apply q_eq; unfold qadd, quat_derivative, qscale, qmul, vec0; cbn [qx qy qz qw vx vy vz]; field.
Qed.
Lemma mvec_zero v : mvec (Mat vec0 vec0 vec0) v = vec0.
Proof. apply v3_eq; unfold mvec, dot3, vec0; cbn [r0 r1 r2 vx vy vz]; ring. Qed.
Lemma scl_vec0 k : scl k vec0 = vec0.
Proof. apply v3_eq; unfold scl, vec0; cbn [vx vy vz]; ring. Qed.
Lemma qdiv_1 q : qdiv q 1 = q.
Proof. apply q_eq; unfold qdiv; cbn [qx qy qz qw]; field. Qed.

Lemma correct_ok c l a b b' :
  correct_body c l a b = Ok b' →
  same_body b' b ∧ sb_pos b' = add3 (sb_pos b) (scl c (scl (sb_im b) l)) ∧ placed b' ∧ inertia_placed b'.
Proof.
  unfold correct_body. intros H. apply bind_ok in H as (q & Hq & H). injection H as <-.
  apply qnormalize_ok in Hq as (_ & _ & Hu).
  split; [repeat split; cbn; destruct (sb_origin b); done|].
  split; [done|]. split.
  - split; [done|]. cbn. intros o Ho. destruct (sb_origin b); [|done]. by injection Ho as <-.
  - intros v. cbn [sb_I sb_orn sb_Il].
    assert (Hr : ∀ x, mvec (to_matrix q) x = rotate q x) by (intros; by apply to_matrix_rotate).
    assert (Ht : mvec (mtrans (to_matrix q)) v = rotate (qconj q) v).
    { rewrite <- (to_matrix_rotate (qconj q)) by by apply unit_conj.
      f_equal. apply m_eq; apply v3_eq; unfold to_matrix, mtrans, qconj, qlsq; cbn [r0 r1 r2 vx vy vz qx qy qz qw col0 col1 col2];
      unfold qlsq; cbn [qx qy qz qw]; replace (- qx q * - qx q + - qy q * - qy q + - qz q * - qz q + qw q * qw q) with (qx q * qx q + qy q * qy q + qz q * qz q + qw q * qw q) by ring; ring. }
    rewrite <- Hr, <- Ht. generalize (to_matrix q) as m, (sb_Il b) as i. intros m i.
    apply v3_eq; unfold mvec, mmul, mtrans, dot3, col0, col1, col2; cbn [r0 r1 r2 vx vy vz]; ring.
Qed.
Lemma correct_fixed c l a b b' :
  correct_body c l a b = Ok b' → placed b → fixed_body b → b' = b.
Proof.
  unfold correct_body. intros H [Hu Ho] (Hm & HI & HL). apply bind_ok in H as (q & Hq & H). injection H as <-.
  rewrite HI, mvec_zero, scl_vec0, qspin_zero in Hq.
  apply qnormalize_ok in Hq as (_ & -> & _). rewrite (qlen_unit _ Hu), qdiv_1.
  destruct b as [o com pos orn im I Il]. cbn in *. subst im I Il.
  assert (E : add3 pos (scl c (scl 0 l)) = pos).
  { apply v3_eq; unfold add3, scl; cbn [vx vy vz]; ring. }
  rewrite E. f_equal.
  - destruct o as [o|]; [|done]. f_equal. symmetry. by apply Ho.
  - generalize (to_matrix orn). intros m. apply m_eq; apply v3_eq;
      unfold mmul, mtrans, dot3, col0, col1, col2, vec0; cbn [r0 r1 r2 vx vy vz]; ring.
Qed.

Lemma solve_position_ok J e A B A' B' :
  solve_position J e A B = Ok (A', B') →
  let k := jmj J (sb_im A) (sb_I A) (sb_im B) (sb_I B) in
  k ≠ 0 ∧ correct_body (e * correction_rate * (1 / k)) (ja J) (jb J) A = Ok A' ∧
  correct_body (e * correction_rate * (1 / k)) (jc J) (jd J) B = Ok B'.
Proof.
  unfold solve_position, rdiv. intros H. cbv zeta. apply bind_ok in H as (f & Hf & H).
  destruct (Req_EM_T _ 0) as [|Hn]; [done|]. injection Hf as <-.
  apply bind_ok in H as (A1 & HA & H). apply bind_ok in H as (B1 & HB & H). by injection H as <- <-.
Qed.
Lemma same_refl b : same_body b b.
Proof. by repeat split. Qed.
Lemma fair_refl A B : fair A B A B.
Proof. unfold fair. split; [apply same_refl|]. split; [apply same_refl|]. repeat (split; [by auto|]). done. Qed.
Lemma fair_trans A B A1 B1 A2 B2 : fair A B A1 B1 → fair A1 B1 A2 B2 → fair A B A2 B2.
Proof.
  intros (SA & SB & PA & PB & IA & IB & FA & FB & M) (SA' & SB' & PA' & PB' & IA' & IB' & FA' & FB' & M').
  destruct SA as (a1 & a2 & a3 & a4), SB as (b1 & b2 & b3 & b4).
  destruct SA' as (c1 & c2 & c3 & c4), SB' as (d1 & d2 & d3 & d4).
  split; [repeat split; try congruence; tauto|]. split; [repeat split; try congruence; tauto|].
  split; [auto|]. split; [auto|]. split; [auto|]. split; [auto|].
  split. { intros H1 H2. pose proof (FA H1 H2) as E. subst A1. by apply FA'. }
  split. { intros H1 H2. pose proof (FB H1 H2) as E. subst B1. by apply FB'. }
  intros mA mB H1 H2. rewrite M' by (by rewrite ?a1, ?b1). by apply M.
Qed.
Lemma solve_fair J e A B A' B' :
  opposite J → solve_position J e A B = Ok (A', B') → fair A B A' B'.
Proof.
  intros HJ H. apply solve_position_ok in H as (_ & HA & HB).
  pose proof (correct_ok _ _ _ _ _ HA) as (SA & PA & QA & IA).
  pose proof (correct_ok _ _ _ _ _ HB) as (SB & PB & QB & IB).
  split; [done|]. split; [done|]. split; [done|]. split; [done|]. split; [done|]. split; [done|].
  split. { intros. by eapply correct_fixed. } split. { intros. by eapply correct_fixed. }
  intros mA mB H1 H2. rewrite PA, PB. unfold opposite in HJ. rewrite HJ.
  set (c := e * correction_rate * (1 / jmj J (sb_im A) (sb_I A) (sb_im B) (sb_I B))) in *. clearbody c.
  apply v3_eq; unfold add3, scl, neg3; cbn [vx vy vz].
  - transitivity (mA * vx (sb_pos A) + mB * vx (sb_pos B) + c * vx (ja J) * (mA * sb_im A - mB * sb_im B)); [ring|].
    rewrite H1, H2. ring.
  - transitivity (mA * vy (sb_pos A) + mB * vy (sb_pos B) + c * vy (ja J) * (mA * sb_im A - mB * sb_im B)); [ring|].
    rewrite H1, H2. ring.
  - transitivity (mA * vz (sb_pos A) + mB * vz (sb_pos B) + c * vz (ja J) * (mA * sb_im A - mB * sb_im B)); [ring|].
    rewrite H1, H2. ring.
Qed.
Lemma join_fair pa pb A B A' B' : solve_join pa pb A B = Ok (A', B') → fair A B A' B'.
Proof.
  unfold solve_join. destruct (rltb eps _).
  - intros H. eapply solve_fair; [|exact H]. apply opp_pull.
  - intros H. injection H as <- <-. apply fair_refl.
Qed.
Lemma tilt_fair p e A B A' B' : solve_tilt p e A B = Ok (A', B') → fair A B A' B'.
Proof.
  unfold solve_tilt. destruct (rltb eps _).
  - intros H. eapply solve_fair; [|exact H]. apply opp_turn.
  - intros H. injection H as <- <-. apply fair_refl.
Qed.
Lemma hinge_fair j A B A' B' : solve_hinge j A B = Ok (A', B') → fair A B A' B'.
Proof.
  unfold solve_hinge. destruct (plane_space _) as [p q]. intros H.
  apply bind_ok in H as ([A1 B1] & H1 & H). apply bind_ok in H as ([A2 B2] & H2 & H).
  eapply fair_trans; [by eapply tilt_fair|]. eapply fair_trans; [by eapply tilt_fair|]. by eapply join_fair.
Qed.
Lemma cv_fair lo up x j A B x' A' B' : solve_cv lo up x j A B = Ok (x', (A', B')) → fair A B A' B'.
Proof.
  unfold solve_cv. intros H. apply bind_ok in H as (m & _ & H).
  apply bind_ok in H as ([A1 B1] & H1 & H). apply bind_ok in H as ([A2 B2] & H2 & H).
  injection H as _ <- <-. eapply fair_trans; [|by eapply join_fair]. eapply solve_fair; [|exact H1]. apply opp_turn.
Qed.
Lemma linear_fair d i j A B A' B' : solve_linear d i j A B = Ok (A', B') → fair A B A' B'.
Proof.
  unfold solve_linear. destruct (JointModel.d_enabled d).
  - intros H. eapply solve_fair; [|exact H]. apply opp_pull.
  - intros H. injection H as <- <-. apply fair_refl.
Qed.
Lemma generic_fair l0 l1 l2 j A B A' B' : solve_generic l0 l1 l2 j A B = Ok (A', B') → fair A B A' B'.
Proof.
  unfold solve_generic. intros H.
  apply bind_ok in H as ([A1 B1] & H1 & H). apply bind_ok in H as ([A2 B2] & H2 & H).
  eapply fair_trans; [by eapply linear_fair|]. eapply fair_trans; by eapply linear_fair.
Qed.
Lemma contact_fair pa pb local normal at_ A B n d A' B' :
  solve_contact pa pb local normal at_ A B = Ok (n, d, (A', B')) → fair A B A' B'.
Proof.
  unfold solve_contact. cbv zeta. destruct (rltb (- eps) _).
  - intros H. injection H as _ _ <- <-. apply fair_refl.
  - intros H. apply bind_ok in H as ([A1 B1] & H1 & H). injection H as _ _ <- <-.
    eapply solve_fair; [|exact H1]. apply opp_pull.
Qed.

(** ** How much is corrected *)
(** The displacements, taken to first order, reduce the error by a fifth. *)
Lemma solve_amount J e A B A' B' :
  solve_position J e A B = Ok (A', B') →
  ∃ wA wB : v3,
    (∃ l, 0 < l ∧ sb_orn A' = qdiv (qadd (sb_orn A) (quat_derivative (sb_orn A) wA)) l) ∧
    (∃ l, 0 < l ∧ sb_orn B' = qdiv (qadd (sb_orn B) (quat_derivative (sb_orn B) wB)) l) ∧
    dot3 (ja J) (sub3 (sb_pos A') (sb_pos A)) + dot3 (jb J) wA +
    dot3 (jc J) (sub3 (sb_pos B') (sb_pos B)) + dot3 (jd J) wB = e / 5.
Proof.
  intros H. apply solve_position_ok in H as (Hk & HA & HB).
  pose proof (correct_ok _ _ _ _ _ HA) as (_ & PA & _). pose proof (correct_ok _ _ _ _ _ HB) as (_ & PB & _).
  set (c := e * correction_rate * (1 / jmj J (sb_im A) (sb_I A) (sb_im B) (sb_I B))) in *.
  exists (scl c (mvec (sb_I A) (jb J))), (scl c (mvec (sb_I B) (jd J))).
  split; [|split].
  - unfold correct_body in HA. apply bind_ok in HA as (q & Hq & HA). injection HA as <-.
    apply qnormalize_ok in Hq as (Hl & -> & _). eexists. split; [exact Hl|done].
  - unfold correct_body in HB. apply bind_ok in HB as (q & Hq & HB). injection HB as <-.
    apply qnormalize_ok in Hq as (Hl & -> & _). eexists. split; [exact Hl|done].
  - rewrite PA, PB.
    transitivity (c * jmj J (sb_im A) (sb_I A) (sb_im B) (sb_I B)).
    + unfold jmj, dot3, sub3, add3, scl. cbn [vx vy vz]. ring.
    + subst c. unfold correction_rate. field. done.
Qed.
(** Bodies that cannot turn. *)
Lemma correct_move c l a b b' x :
  correct_body c l a b = Ok b' → placed b → sb_I b = Mat vec0 vec0 vec0 →
  to_world x (s_origin b') (sb_orn b') = add3 (to_world x (s_origin b) (sb_orn b)) (scl (c * sb_im b) l).
Proof.
  intros H [Hu Ho] HI. unfold correct_body in H. apply bind_ok in H as (q & Hq & H). injection H as <-.
  rewrite HI, mvec_zero, scl_vec0, qspin_zero in Hq. apply qnormalize_ok in Hq as (_ & -> & _).
  rewrite (qlen_unit _ Hu), qdiv_1. unfold s_origin. cbn [sb_origin sb_pos sb_orn sb_com].
  destruct (sb_origin b) as [o|].
  - rewrite (Ho o eq_refl). unfold to_world. apply v3_eq; unfold add3, scl; cbn [vx vy vz]; ring.
  - unfold to_world. apply v3_eq; unfold add3, scl; cbn [vx vy vz]; ring.
Qed.
Lemma pull_move rA rB d e A B A' B' x y :
  solve_position (jpull rA rB d) e A B = Ok (A', B') →
  placed A → placed B → sb_I A = Mat vec0 vec0 vec0 → sb_I B = Mat vec0 vec0 vec0 →
  lsq d = 1 →
  sub3 (to_world x (s_origin A') (sb_orn A')) (to_world y (s_origin B') (sb_orn B'))
  = add3 (sub3 (to_world x (s_origin A) (sb_orn A)) (to_world y (s_origin B) (sb_orn B))) (scl (e / 5) d).
Proof.
  intros H PA PB IA IB Hd. apply solve_position_ok in H as (Hk & HA & HB).
  rewrite (correct_move _ _ _ _ _ x HA PA IA), (correct_move _ _ _ _ _ y HB PB IB).
  assert (Ek : jmj (jpull rA rB d) (sb_im A) (sb_I A) (sb_im B) (sb_I B) = sb_im A + sb_im B).
  { unfold jmj. rewrite IA, IB, !mvec_zero. cbn [jpull ja jb jc jd]. unfold lsq, dot3 in *. cbn [neg3 vec0 vx vy vz].
    transitivity ((vx d * vx d + vy d * vy d + vz d * vz d) * (sb_im A + sb_im B)); [ring|]. rewrite Hd. ring. }
  rewrite Ek in *. unfold correction_rate. cbn [jpull ja jc].
  apply v3_eq; unfold sub3, add3, scl, neg3; cbn [vx vy vz]; field; done.
Qed.
Lemma join_amount pa pb A B A' B' :
  solve_join pa pb A B = Ok (A', B') → placed A → placed B →
  sb_I A = Mat vec0 vec0 vec0 → sb_I B = Mat vec0 vec0 vec0 →
  let gap A B := sub3 (to_world pa (s_origin A) (sb_orn A)) (to_world pb (s_origin B) (sb_orn B)) in
  eps < len (gap A B) → gap A' B' = scl (4 / 5) (gap A B).
Proof.
  intros H PA PB IA IB gap Hg. unfold solve_join in H. fold (gap A B) in H.
  rewrite (proj2 (rltb_true _ _) Hg) in H. pose proof eps_pos.
  unfold gap at 1. rewrite (pull_move _ _ _ _ _ _ _ _ pa pb H PA PB IA IB).
  - fold (gap A B). apply v3_eq; unfold add3, scl, div3; cbn [vx vy vz]; field; lra.
  - unfold div3, lsq, dot3. cbn [vx vy vz].
    transitivity (lsq (gap A B) / (len (gap A B) * len (gap A B))).
    + unfold lsq, dot3. field. lra.
    + rewrite len_sq. field. rewrite <- len_sq. nra.
Qed.
Lemma contact_amount pa pb local normal A B n d A' B' :
  solve_contact pa pb local normal Loose A B = Ok (n, d, (A', B')) → placed A → placed B →
  sb_I A = Mat vec0 vec0 vec0 → sb_I B = Mat vec0 vec0 vec0 → lsq normal = 1 →
  let depth A B := dot3 (sub3 (to_world pa (s_origin A) (sb_orn A)) (to_world pb (s_origin B) (sb_orn B))) normal in
  d = depth A B ∧ (- eps < d → A' = A ∧ B' = B) ∧ (d <= - eps → depth A' B' = 4 / 5 * d).
Proof.
  intros H PA PB IA IB Hn depth. unfold solve_contact in H. cbv zeta in H.
  fold (depth A B) in H. destruct (rltb (- eps) (depth A B)) eqn:E.
  - apply rltb_true in E. injection H as _ <- <- <-. split; [done|]. split; [done|]. lra.
  - apply rltb_false in E. apply bind_ok in H as ([A1 B1] & H1 & H). injection H as <- <- <- <-.
    split; [done|]. split; [lra|]. intros _.
    unfold depth at 1. rewrite (pull_move _ _ _ _ _ _ _ _ pa pb H1 PA PB IA IB Hn).
    fold (depth A B). rewrite dot_add_l, dot_scl_l. fold (depth A B).
    unfold lsq in Hn. rewrite Hn. lra.
Qed.
Lemma linear_inside d i j A B A' B' :
  solve_linear d i j A B = Ok (A', B') → placed A → placed B → inertia_placed A → inertia_placed B →
  let x := dot3 (sub3 (to_world (jt_pb j) (s_origin B) (sb_orn B)) (to_world (jt_pa j) (s_origin A) (sb_orn A)))
             (rotate (sb_orn A) (mcol (jt_fa j) i)) in
  JointModel.d_min d <= x <= JointModel.d_max d →
  sb_pos A' = sb_pos A ∧ sb_pos B' = sb_pos B ∧ sb_orn A' = sb_orn A ∧ sb_orn B' = sb_orn B.
Proof.
  intros H [UA _] [UB _] _ _ x Hx. unfold solve_linear in H. destruct (JointModel.d_enabled d).
  - fold x in H. assert (Er : range_error (JointModel.d_min d) (JointModel.d_max d) x = 0).
    { unfold range_error. rewrite (proj2 (rltb_false x _)) by apply Hx.
      by rewrite (proj2 (rltb_false _ x)) by apply Hx. }
    rewrite Er in H. apply solve_position_ok in H as (_ & HA & HB).
    rewrite !Rmult_0_l in HA, HB.
    assert (Z : ∀ l a b b', qlsq (sb_orn b) = 1 → correct_body 0 l a b = Ok b' → sb_pos b' = sb_pos b ∧ sb_orn b' = sb_orn b).
    { intros l a b b' Hu Hc. unfold correct_body in Hc. apply bind_ok in Hc as (q & Hq & Hc). injection Hc as <-.
      assert (E0 : ∀ v, scl 0 v = vec0) by (intros; apply v3_eq; unfold scl, vec0; cbn [vx vy vz]; ring).
      rewrite E0, qspin_zero in Hq. apply qnormalize_ok in Hq as (_ & -> & _). cbn.
      rewrite (qlen_unit _ Hu), qdiv_1, E0. split; [|done].
      apply v3_eq; unfold add3, vec0; cbn [vx vy vz]; ring. }
    destruct (Z _ _ _ _ UA HA), (Z _ _ _ _ UB HB). done.
  - by injection H as <- <-.
Qed.
