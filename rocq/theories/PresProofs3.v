(** Offsets over many updates. *)
From Verif Require Import Outcome BoxModel GeoModel RotSpec RotProofs RotProofs4 RotProofs5 RotProps PresModel PresSpec PresProofs2.
From Coq Require Import Reals Lra Psatz.
Local Open Scope R_scope.

Lemma present_offsets rate dt idt b b' : unit_offset (b_dis b) → unit_offset (b_acc b) → 0 <= rate * dt →
  update_presentation (Some rate) dt idt b = Ok b' →
  same_state b b' ∧ unit_offset (b_dis b') ∧ unit_offset (b_acc b') ∧
  (b_dis b = None → b_dis b' = None) ∧
  (∀ o, total_of b o → ∃ d', b_dis b' = Some d' ∧ (∀ a', b_acc b' = Some a' → a' = no_offset) ∧
     (if b_sleeping b then d' = no_offset else
      d'.1 = decay_pos rate dt o.1 ∧ decay_orn rate dt o.2 = Ok d'.2)).
Proof.
  intros Hd Ha Hr. unfold update_presentation.
  destruct (discontinuities_ok rate dt b Hd Ha Hr) as (b1 & E1 & S1 & _ & _ & U1 & V1 & N1 & T1). rewrite E1. simpl.
  intros H. apply bind_ok in H as (b2 & E2 & H). injection H as <-.
  assert (same_state b1 b2 ∧ b_dis b2 = b_dis b1 ∧ b_acc b2 = b_acc b1) as (S2 & D2 & A2).
  { unfold extrapolate in E2. destruct (_ && _ && _).
    - apply bind_ok in E2 as (q & _ & [= <-]). done.
    - by injection E2 as <-. }
  assert (same_state b2 (show_offset b2) ∧ b_dis (show_offset b2) = b_dis b1 ∧ b_acc (show_offset b2) = b_acc b1) as (S3 & D3 & A3).
  { rewrite <- D2, <- A2. unfold show_offset. destruct (b_dis b2) eqn:E; done. }
  rewrite D3, A3. split_and!; try done.
  unfold same_state in *. intuition congruence.
Qed.

Lemma asleep_update rate dt idt b : unit_offset (b_dis b) → unit_offset (b_acc b) → 0 <= rate * dt → b_sleeping b = true →
  ∃ b', update_presentation (Some rate) dt idt b = Ok b' ∧ b_ppos b' = b_ppos b ∧ b_pos b' = b_pos b ∧
    b_sleeping b' = true ∧ unit_offset (b_dis b') ∧ unit_offset (b_acc b').
Proof.
  intros Hd Ha Hr Hs. 
  destruct (discontinuities_ok rate dt b Hd Ha Hr) as (b1 & E1 & S1 & P1 & _ & U1 & V1 & N1 & T1).
  destruct S1 as (S1 & S2 & S3 & S4 & S5 & S6 & S7).
  assert (E2 : extrapolate idt b1 = Ok b1).
  { unfold extrapolate. rewrite S6, Hs. by rewrite andb_false_r. }
  eexists. split.
  { unfold update_presentation. rewrite E1. simpl. rewrite E2. simpl. done. }
  destruct (b_dis b) as [d|] eqn:Ed.
  - destruct (T1 _ (ex_intro _ d (conj Ed eq_refl))) as (d' & D1 & _ & D2). rewrite Hs in D2. subst d'.
    unfold show_offset. rewrite D1. simpl. rewrite D1 in U1. split_and!; try done; try congruence.
    + rewrite <- P1. apply v3_eq; unfold add3, vec0; simpl; ring.
    + by rewrite D1.
  - specialize (N1 eq_refl). unfold show_offset. rewrite N1. split_and!; try done; try congruence.
Qed.
Lemma asleep_updates rate l b : unit_offset (b_dis b) → unit_offset (b_acc b) → b_sleeping b = true →
  Forall (λ x, 0 <= rate * x.1) l →
  ∃ b', updates rate l b = Ok b' ∧ b_ppos b' = b_ppos b ∧ b_pos b' = b_pos b.
Proof.
  revert b. induction l as [|x l IH]; intros b Hd Ha Hs Hf; [by exists b|]. apply Forall_cons in Hf as [Hx Hf].
  destruct (asleep_update rate x.1 x.2 b Hd Ha Hx Hs) as (b1 & E1 & P1 & P2 & P3 & P4 & P5).
  destruct (IH b1 P4 P5 P3 Hf) as (b2 & E2 & Q1 & Q2). exists b2. simpl. rewrite E1. simpl.
  split_and!; congruence.
Qed.

(** * Orientation offsets *)
Definition bend (q : quat) : R := acos (Rabs (qw q)).
Lemma abs_w q : qlsq q = 1 → 0 <= Rabs (qw q) <= 1.
Proof.
  intros U. split; [apply Rabs_pos|]. unfold qlsq in U.
  pose proof (Rle_0_sqr (qx q)) as A. pose proof (Rle_0_sqr (qy q)) as B. pose proof (Rle_0_sqr (qz q)) as C.
  unfold Rsqr in *. apply Rabs_le. split; nra.
Qed.
Lemma bend_range q : qlsq q = 1 → 0 <= bend q <= PI / 2.
Proof.
  intros U. pose proof (abs_w q U) as [A B]. unfold bend. split; [apply acos_bound|].
  destruct (Rle_dec (acos (Rabs (qw q))) (PI / 2)) as [?|N]; [done|]. exfalso.
  pose proof (acos_bound (Rabs (qw q))) as [_ P].
  assert (cos (acos (Rabs (qw q))) < 0) by (apply cos_lt_0; lra). rewrite cos_acos in H; lra.
Qed.
Lemma bend_slerp q s r : qlsq q = 1 → Rabs (qw q) < 9999 / 10000 → 0 <= s <= 1 → slerp q qid s = Ok r → qlsq r = 1 →
  bend r = (1 - s) * bend q.
Proof.
  intros U Hw Hs H Ur. pose proof (abs_w q U) as [A B]. pose proof (bend_range q U) as [T1 T2]. pose proof PI_RGT_0 as Ppi.
  unfold slerp in H. assert (Ei : qlsq qid = 1) by apply qid_unit. rewrite U, Ei in H.
  replace (1 * 1) with 1 in H by ring. rewrite sqrt_1 in H. rewrite (proj2 (rltb_true 0 1)) in H by lra.
  cbn [assert_ mbind res_bind] in H.
  assert (Ed : qdot q qid / 1 = qw q) by (unfold qdot, qid; simpl; field). rewrite Ed in H.
  destruct (Rlt_dec (1 - eps) (Rabs (qw q))) as [L|_]; [pose proof eps_small; lra|].
  change (acos (Rabs (qw q))) with (bend q) in H. set (t := bend q) in *.
  assert (Hc : cos t = Rabs (qw q)) by (unfold t, bend; apply cos_acos; lra).
  assert (Pt : 0 < sin t).
  { apply sin_gt_0; [|lra]. destruct (Req_dec t 0) as [E|]; [|lra]. rewrite E, cos_0 in Hc. lra. }
  rewrite (proj2 (rltb_true 0 (sin t))) in H by done. cbn [assert_ mbind res_bind] in H. injection H as Hr.
  assert (Ew : Rabs (qw r) = cos ((1 - s) * t)).
  { rewrite <- Hr. cbn [qw qid].
    assert (Es : sin (s * t) = sin t * cos ((1 - s) * t) - cos t * sin ((1 - s) * t)).
    { rewrite <- sin_minus. f_equal. ring. }
    assert (P : 0 <= cos ((1 - s) * t)).
    { apply cos_ge_0; [apply Rle_trans with 0; [lra|apply Rmult_le_pos; lra]|].
      apply Rle_trans with (1 * t); [apply Rmult_le_compat_r; lra|lra]. }
    destruct (Rlt_dec (qw q) 0) as [N|N].
    - rewrite (Rabs_left (qw q)) in Hc by done. replace (-1 * s * t) with (- (s * t)) by ring. rewrite sin_neg, Es.
      replace (qw q * (sin ((1 - s) * t) / sin t) + 1 * (- (sin t * cos ((1 - s) * t) - cos t * sin ((1 - s) * t)) / sin t))
        with (- cos ((1 - s) * t) + (cos t + qw q) * sin ((1 - s) * t) / sin t) by (field; lra).
      rewrite Hc. replace (- cos ((1 - s) * t) + (- qw q + qw q) * sin ((1 - s) * t) / sin t) with (- cos ((1 - s) * t)) by (field; lra).
      rewrite Rabs_Ropp. by apply Rabs_pos_eq.
    - rewrite (Rabs_pos_eq (qw q)) in Hc by lra. replace (1 * s * t) with (s * t) by ring. rewrite Es.
      replace (qw q * (sin ((1 - s) * t) / sin t) + 1 * ((sin t * cos ((1 - s) * t) - cos t * sin ((1 - s) * t)) / sin t))
        with (cos ((1 - s) * t) + (qw q - cos t) * sin ((1 - s) * t) / sin t) by (field; lra).
      rewrite Hc. replace (cos ((1 - s) * t) + (qw q - qw q) * sin ((1 - s) * t) / sin t) with (cos ((1 - s) * t)) by (field; lra).
      by apply Rabs_pos_eq. }
  unfold bend. rewrite Ew. apply acos_cos. split; [apply Rmult_le_pos; lra|].
  apply Rle_trans with (1 * t); [apply Rmult_le_compat_r; lra|lra].
Qed.
Lemma cos_lower x : 0 <= x → 1 - x * x / 2 <= cos x.
Proof.
  intros H. destruct (Req_dec x 0) as [->|N]; [rewrite cos_0; lra|].
  replace x with (2 * (x / 2)) at 3 by field. rewrite cos_2a_sin.
  assert (Hb : Rabs (sin (x / 2)) <= x / 2).
  { destruct (Rle_dec (x / 2) 1) as [L|L].
    - assert (sin (x / 2) < x / 2) by (apply sin_lt_x; lra).
      assert (0 <= sin (x / 2)) by (apply sin_ge_0; [lra|pose proof PI2_1; lra]). rewrite Rabs_pos_eq; lra.
    - pose proof (SIN_bound (x / 2)). apply Rabs_le. lra. }
  assert (sin (x / 2) * sin (x / 2) <= x / 2 * (x / 2)).
  { rewrite <- (Rabs_pos_eq (sin (x / 2) * sin (x / 2))) by apply Rle_0_sqr. rewrite Rabs_mult.
    apply Rmult_le_compat; try done; apply Rabs_pos. }
  lra.
Qed.
Lemma bend_small q : qlsq q = 1 → bend q <= 1 / 100 → 9999 / 10000 <= Rabs (qw q).
Proof.
  intros U H. pose proof (abs_w q U). pose proof (bend_range q U) as [B _].
  assert (E : Rabs (qw q) = cos (bend q)) by (unfold bend; rewrite cos_acos; lra). rewrite E.
  pose proof (cos_lower (bend q) B). assert (bend q * bend q <= 1 / 100 * (1 / 100)) by (apply Rmult_le_compat; lra). lra.
Qed.
Lemma bend_id : bend qid = 0.
Proof. unfold bend, qid. simpl. rewrite Rabs_R1. apply acos_1. Qed.
Lemma decay_orn_bend rate dt c q r : qlsq q = 1 → 0 < c < 1 → c <= rate * dt → decay_orn rate dt q = Ok r →
  qlsq r = 1 ∧ bend r <= (1 - c) * bend q ∧ (bend q <= 1 / 100 → r = qid).
Proof.
  intros U Hc Hr H. destruct (decay_orn_ok rate dt q U) as (r' & E & Ur & _ & H1 & H2).
  rewrite H in E. injection E as <-. split; [done|]. pose proof (bend_range q U).
  split; [|intros Hb; by apply H1, bend_small].
  destruct (Rlt_dec (Rabs (qw q)) (9999 / 10000)) as [L|L].
  - assert (Hk : c <= Rmin (rate * dt) 1 <= 1) by (unfold Rmin; destruct Rle_dec; lra).
    rewrite (bend_slerp q (Rmin (rate * dt) 1) r) by (try done; try lra; by apply H2).
    apply Rmult_le_compat_r; lra.
  - rewrite H1 by lra. rewrite bend_id. apply Rmult_le_pos; lra.
Qed.

(** * Both are gone *)
Definition settled (b : body) : Prop := ∀ a, b_acc b = Some a → a = no_offset.
Lemma total_settled b d : settled b → b_dis b = Some d → qlsq d.2 = 1 → total_of b d.
Proof.
  intros Hs Hd U. exists d. split; [done|]. destruct (b_acc b) as [a|] eqn:E; [|done]. rewrite (Hs a E).
  destruct d as [d1 d2]. simpl. f_equal; [apply v3_eq; unfold add3, vec0; simpl; ring|].
  apply q_eq; unfold qmul, qid; simpl; ring.
Qed.
Lemma updates_track rate c l b b' d : 0 < c < 1 → Forall (λ x, c <= rate * x.1) l → b_sleeping b = false →
  settled b → b_dis b = Some d → qlsq d.2 = 1 → updates rate l b = Ok b' →
  ∃ d', b_dis b' = Some d' ∧ d'.1 = decays rate (map fst l) d.1 ∧ qlsq d'.2 = 1 ∧
    settled b' ∧ b_sleeping b' = false ∧ bend d'.2 <= (1 - c) ^ length l * bend d.2.
Proof.
  intros Hc. revert b d. induction l as [|x l IH]; intros b d Hf Hs Ha Hd U H.
  { injection H as <-. exists d. split_and!; try done. simpl. lra. }
  apply Forall_cons in Hf as [Hx Hf]. simpl in H. apply bind_ok in H as (b1 & E1 & H).
  assert (Ua : unit_offset (b_acc b)) by (intros a Ea; rewrite (Ha a Ea); apply qid_unit).
  assert (Ud : unit_offset (b_dis b)) by (intros a Ea; rewrite Hd in Ea; by injection Ea as <-).
  destruct (present_offsets rate x.1 x.2 b b1 Ud Ua ltac:(lra) E1) as (S1 & U1 & V1 & _ & T1).
  destruct (T1 d (total_settled b d Ha Hd U)) as (d1 & D1 & A1 & D2). rewrite Hs in D2. destruct D2 as [D2 D3].
  destruct (decay_orn_bend rate x.1 c d.2 d1.2 U Hc Hx D3) as (U2 & B2 & _).
  destruct S1 as (_ & _ & _ & _ & _ & S6 & _).
  destruct (IH b1 d1 Hf ltac:(congruence) A1 D1 U2 H) as (d' & X1 & X2 & X3 & X4 & X5 & X6).
  exists d'. split_and!; try done.
  - rewrite X2, D2. done.
  - eapply Rle_trans; [exact X6|]. apply Rle_trans with ((1 - c) ^ length l * ((1 - c) * bend d.2)).
    + apply Rmult_le_compat_l; [apply pow_le; lra|done].
    + apply Req_le. simpl. ring.
Qed.
Lemma updates_app rate l1 l2 b b' : updates rate (l1 ++ l2) b = Ok b' →
  ∃ b1, updates rate l1 b = Ok b1 ∧ updates rate l2 b1 = Ok b'.
Proof.
  revert b. induction l1 as [|x l1 IH]; intros b H; [by exists b|]. simpl in H. apply bind_ok in H as (b1 & E1 & H).
  destruct (IH b1 H) as (b2 & E2 & H2). exists b2. simpl. rewrite E1. done.
Qed.
Lemma updates_gone rate c b d : 0 < c → b_sleeping b = false → settled b → b_dis b = Some d → qlsq d.2 = 1 →
  ∃ n, ∀ l b', (n <= length l)%nat → Forall (λ x, c <= rate * x.1) l → updates rate l b = Ok b' →
    b_dis b' = Some no_offset.
Proof.
  intros Hc0 Hs Ha Hd U. set (c' := Rmin c (1 / 2)).
  assert (Hc : 0 < c' < 1 ∧ c' <= c) by (unfold c', Rmin; destruct Rle_dec; lra). clearbody c'.
  destruct (decays_gone rate c d.1 Hc0) as [N1 H1].
  pose proof (bend_range d.2 U) as Hb.
  destruct (pow_lt_1_zero (1 - c')) with (y := 1 / 100 / (bend d.2 + 1)) as [N2 H2].
  { rewrite Rabs_pos_eq; lra. }
  { apply Rdiv_lt_0_compat; lra. }
  exists (S (N1 + N2)). intros l b' Hl Hf H.
  assert (Hf' : Forall (λ x : R * R, c' <= rate * x.1) l) by (eapply Forall_impl; [exact Hf|]; simpl; intros; lra).
  destruct (updates_track rate c' l b b' d) as (d' & X1 & X2 & X3 & _); try done; try lra.
  rewrite X1. f_equal. destruct d' as [p q]. simpl in *. unfold no_offset. f_equal.
  { rewrite X2. apply H1; [rewrite map_length; lia|]. by apply Forall_map. }
  destruct l as [|x l _] using rev_ind; [simpl in Hl; lia|]. rewrite app_length in Hl. simpl in Hl.
  apply updates_app in H as (b1 & E1 & E2). apply Forall_app in Hf' as [F1 F2]. apply Forall_cons in F2 as [F2 _].
  destruct (updates_track rate c' l b b1 d) as (d1 & Y1 & Y2 & Y3 & Y4 & Y5 & Y6); try done; try lra.
  simpl in E2. apply bind_ok in E2 as (b2 & E2 & E3). injection E3 as <-.
  assert (Ua : unit_offset (b_acc b1)) by (intros a Ea; rewrite (Y4 a Ea); apply qid_unit).
  assert (Ud : unit_offset (b_dis b1)) by (intros a Ea; rewrite Y1 in Ea; by injection Ea as <-).
  destruct (present_offsets rate x.1 x.2 b1 b2 Ud Ua ltac:(lra) E2) as (_ & _ & _ & _ & T1).
  destruct (T1 d1 (total_settled b1 d1 Y4 Y1 Y3)) as (d2 & D1 & _ & D2). rewrite Y5 in D2. destruct D2 as [_ D3].
  rewrite X1 in D1. injection D1 as <-. simpl in D3.
  destruct (decay_orn_bend rate x.1 c' d1.2 q Y3 ltac:(lra) F2 D3) as (_ & _ & Z). apply Z.
  specialize (H2 (length l) ltac:(lia)). rewrite Rabs_pos_eq in H2 by (apply pow_le; lra).
  set (z := (1 - c') ^ length l) in *. assert (0 <= z) by (apply pow_le; lra).
  assert (z * (bend d.2 + 1) < 1 / 100).
  { apply (Rmult_lt_compat_r (bend d.2 + 1)) in H2; [|lra]. unfold Rdiv in H2 at 1.
    replace (1 / 100 * / (bend d.2 + 1) * (bend d.2 + 1)) with (1 / 100) in H2 by (field; lra). exact H2. }
  assert (z * (bend d.2 + 1) = z * bend d.2 + z) by ring. lra.
Qed.
