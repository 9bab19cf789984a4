(** The presented transforms. *)
From Verif Require Import Outcome BoxModel GeoModel RotSpec RotProofs RotProofs4 RotProofs5 RotProps PresModel PresSpec.
From Coq Require Import Reals Lra Psatz.
Local Open Scope R_scope.

Lemma qid_unit : qlsq qid = 1.
Proof. unfold qlsq, qid. simpl. lra. Qed.
Lemma rotate_id v : rotate qid v = v.
Proof. apply v3_eq; unfold rotate, qid, add3, cross3, scl; simpl; ring. Qed.
Lemma rmin_unit' r : 0 <= r → 0 <= Rmin r 1 <= 1.
Proof. intros H. unfold Rmin. destruct Rle_dec; lra. Qed.

(** The orientation offset fades along the shortest way. *)
Lemma decay_orn_ok rate dt q : qlsq q = 1 →
  ∃ r, decay_orn rate dt q = Ok r ∧ qlsq r = 1 ∧ fades (Rmin (rate * dt) 1) q r ∧
    (9999 / 10000 <= Rabs (qw q) → r = qid) ∧ (Rabs (qw q) < 9999 / 10000 → slerp q qid (Rmin (rate * dt) 1) = Ok r).
Proof.
  intros U. unfold decay_orn. destruct (rltb (Rabs (qw q)) (9999 / 10000)) eqn:E.
  - apply rltb_true in E.
    assert (Hd : qdot q qid = qw q) by (unfold qdot, qid; simpl; ring).
    destruct (slerp_ok q qid U qid_unit) as (n & a & Hn & Ha & Hr & Hs).
    { rewrite Hd. pose proof eps_small. lra. }
    destruct (Hs (Rmin (rate * dt) 1)) as (r & E1 & E2 & E3). exists r. split_and!; [done..| |intros; lra|done].
    right. split; [done|]. exists n, a. split_and!; try done; [lra..|]. intros v. by rewrite <- Hr, rotate_id.
  - apply rltb_false in E. exists qid. split_and!; [done|apply qid_unit|left; split; [lra|done]|done|intros; lra].
Qed.
Lemma decay_pos_small rate dt p : 0 <= rate * dt → 
  (decay_pos rate dt p = vec0 ∨ decay_pos rate dt p = ((1 - Rmin (rate * dt) 1) * p)%V) ∧
  (lsq p <= 1 / 10000 → decay_pos rate dt p = vec0) ∧
  lsq (decay_pos rate dt p) <= (1 - Rmin (rate * dt) 1) * (1 - Rmin (rate * dt) 1) * lsq p.
Proof.
  intros H. pose proof (rmin_unit' _ H) as Hk. unfold decay_pos. set (k := Rmin (rate * dt) 1) in *. clearbody k.
  assert (E : (p - k * p)%V = ((1 - k) * p)%V) by (apply v3_eq; unfold sub3, scl; simpl; ring).
  assert (P : 0 <= (1 - k) * (1 - k) * lsq p) by (apply Rmult_le_pos; [apply Rmult_le_pos; lra|apply lsq_nonneg]).
  assert (Z : lsq vec0 = 0) by (unfold lsq, dot3, vec0; simpl; ring).
  destruct (rltb (1 / 10000) (lsq p)) eqn:Er.
  - apply rltb_true in Er. rewrite E. split_and!; [by right|intros; lra|].
    apply Req_le. unfold lsq, dot3, scl. simpl. ring.
  - split_and!; [by left|done|]. by rewrite Z.
Qed.

(** The total offset of a body before it fades *)
Definition total_of (b : body) (o : offset) : Prop := ∃ d, b_dis b = Some d ∧
  o = match b_acc b with Some a => ((d.1 + a.1)%V, qmul d.2 a.2) | None => d end.

Lemma discontinuities_ok rate dt b : unit_offset (b_dis b) → unit_offset (b_acc b) → 0 <= rate * dt →
  ∃ b', update_discontinuities rate dt b = Ok b' ∧ same_state b b' ∧
    b_ppos b' = b_ppos b ∧ b_porn b' = b_porn b ∧ unit_offset (b_dis b') ∧ unit_offset (b_acc b') ∧
    (b_dis b = None → b_dis b' = None) ∧
    (∀ o, total_of b o → ∃ d', b_dis b' = Some d' ∧
       (∀ a', b_acc b' = Some a' → a' = no_offset) ∧
       (if b_sleeping b then d' = no_offset else
        d'.1 = decay_pos rate dt o.1 ∧ decay_orn rate dt o.2 = Ok d'.2)).
Proof.
  intros Hd Ha Hr. unfold update_discontinuities, transfer.
  destruct b as [pos orn lv av pp po pr sl di dis acc]. simpl in *.
  destruct dis as [d|].
  - specialize (Hd d eq_refl).
    assert (T : ∃ o acc', match acc with Some a => q ← qnormalize (qmul d.2 a.2);
        Ok (Body pos orn lv av pp po pr sl di (Some ((d.1 + a.1)%V, q)) (Some no_offset))
        | None => Ok (Body pos orn lv av pp po pr sl di (Some d) None) end
        = Ok (Body pos orn lv av pp po pr sl di (Some o) acc') ∧ qlsq o.2 = 1 ∧ unit_offset acc' ∧
        (∀ a', acc' = Some a' → a' = no_offset) ∧
        o = match acc with Some a => ((d.1 + a.1)%V, qmul d.2 a.2) | None => d end).
    { destruct acc as [a|].
      - specialize (Ha a eq_refl). assert (Hu : qlsq (qmul d.2 a.2) = 1) by (rewrite qlsq_mul, Hd, Ha; ring).
        rewrite qnorm_unit by done. simpl. do 2 eexists. split_and!; [done|done| | |done].
        + intros a' [= <-]. apply qid_unit.
        + by intros a' [= <-].
      - exists d, None. split_and!; try done. }
    destruct T as (o & acc' & E & Uo & Ua & Na & Eo).
    assert (E' : match acc with
      | Some a => q ← qnormalize (qmul d.2 a.2);
          Ok (with_dis (Body pos orn lv av pp po pr sl di (Some d) acc) (Some ((d.1 + a.1)%V, q)) (Some no_offset))
      | None => Ok (Body pos orn lv av pp po pr sl di (Some d) acc) end
      = Ok (Body pos orn lv av pp po pr sl di (Some o) acc')) by (destruct acc; exact E).
    unfold with_dis in E'. simpl in E'. unfold with_dis. simpl. rewrite E'. simpl. unfold decay. simpl.
    destruct (decay_orn_ok rate dt o.2 Uo) as (r & Er & Ur & _). rewrite Er. simpl.
    eexists. split; [done|]. unfold calm. simpl.
    assert (Ho : ∀ o0, total_of (Body pos orn lv av pp po pr sl di (Some d) acc) o0 → o0 = o).
    { intros o0 (d0 & H1 & H2). simpl in *. injection H1 as <-. by rewrite Eo. }
    destruct sl; simpl; (split_and!; [done|done|done| |done|done|]);
      try (intros d0 [= <-]; first [apply qid_unit|done]);
      intros o0 H0; pose proof (Ho _ H0) as E0; subst o0; eexists; (split_and!; [done|done|..]); simpl; done.
  - simpl. eexists. split; [done|]. split_and!; try done. intros o (d & H1 & _). done.
Qed.

(** What an update shows *)
Lemma present_ok client dt idt b : b_procedural b = true → b_sleeping b = false → b_disabled b = false →
  qlsq (b_orn b) = 1 → unit_offset (b_dis b) → unit_offset (b_acc b) → Rabs idt <= 1 →
  (∀ rate, client = Some rate → 0 <= rate * dt) →
  ∃ b' a, update_presentation client dt idt b = Ok b' ∧ same_state b b' ∧
    unit_offset (b_dis b') ∧ unit_offset (b_acc b') ∧
    b_ppos b' = ((b_pos b + idt * b_linvel b) + (remaining b').1)%V ∧ qlsq (b_porn b') = 1 ∧
    Rabs (a - len (b_angvel b) * idt) <= (len (b_angvel b) * Rabs idt) ^ 5 / 1000 ∧
    (/ 1000 <= len (b_angvel b) → a = len (b_angvel b) * idt) ∧
    ∀ n v, dot3 n n = 1 → b_angvel b = (len (b_angvel b) * n)%V →
      rotate (b_porn b') v = rotate (remaining b').2 (turn n a (rotate (b_orn b) v)).
Proof.
  intros Hp Hs Hx Hq Hd Ha Hi Hc. unfold update_presentation.
  assert (∃ b1, (match client with Some rate => update_discontinuities rate dt b | None => Ok b end) = Ok b1 ∧
    same_state b b1 ∧ unit_offset (b_dis b1) ∧ unit_offset (b_acc b1)) as (b1 & E1 & S1 & U1 & V1).
  { destruct client as [rate|].
    - destruct (discontinuities_ok rate dt b Hd Ha (Hc _ eq_refl)) as (b1 & ? & ? & _ & _ & ? & ? & _). by exists b1.
    - by exists b. }
  rewrite E1. simpl. destruct S1 as (S1 & S2 & S3 & S4 & S5 & S6 & S7).
  unfold extrapolate. rewrite S5, S6, S7, Hp, Hs, Hx. simpl. rewrite S1, S2, S3, S4.
  destruct (C56_integrate (b_orn b) (b_angvel b) idt Hq Hi) as (r & a & Er & Ur & A1 & A2 & A3).
  rewrite Er. simpl. unfold show_offset. simpl. destruct (b_dis b1) as [d|] eqn:Ed.
  - specialize (U1 d eq_refl). eexists _, a. split; [done|].
    unfold remaining, with_present. simpl. rewrite Ed. simpl. split_and!; simpl; try done; try congruence.
    + rewrite qlsq_mul, U1, Ur. ring.
    + intros n v Hn Hw. rewrite rotate_mul by done. by rewrite (A3 n v).
  - eexists _, a. split; [done|]. unfold remaining, with_present. simpl. rewrite Ed. simpl.
    split_and!; simpl; try done; try congruence.
    + apply v3_eq; unfold add3, vec0; simpl; ring.
    + intros n v Hn Hw. rewrite rotate_id. by apply A3.
Qed.

Lemma jump_unfaded p q b : qlsq q = 1 → b_sleeping b = false → b_disabled b = false →
  unfaded (jump p q b) = unfaded b.
Proof.
  intros U Hs Hx. destruct b as [pos orn lv av pp po pr sl di dis acc]. simpl in Hs, Hx. subst sl di.
  unfold unfaded, jump. simpl. destruct dis as [[d1 d2]|]; [|done]. destruct acc as [[a1 a2]|]; [|done]. simpl. f_equal. f_equal.
  - apply v3_eq; unfold add3, sub3; simpl; ring.
  - assert (E : qmul (qmul d2 (qmul a2 (qmul orn (qconj q)))) q = qscale (qlsq q) (qmul (qmul d2 a2) orn)).
    { apply q_eq; unfold qmul, qconj, qscale, qlsq; simpl; ring. }
    rewrite E, U. apply q_eq; unfold qscale; simpl; ring.
Qed.

(** Position offsets are gone after finitely many updates. *)
Definition decays (rate : R) (dts : list R) (p : v3) : v3 := foldl (λ p dt, decay_pos rate dt p) p dts.
Lemma decay_zero rate dt : decay_pos rate dt vec0 = vec0.
Proof.
  unfold decay_pos. rewrite (proj2 (rltb_false _ _)); [done|]. unfold lsq, dot3, vec0. simpl. lra.
Qed.
Lemma decays_zero rate dts : decays rate dts vec0 = vec0.
Proof. unfold decays. induction dts as [|dt dts IH]; [done|]. simpl. by rewrite decay_zero. Qed.
Lemma decays_close rate c dts p : 0 < c < 1 → Forall (λ dt, c <= rate * dt) dts →
  decays rate dts p = vec0 ∨ lsq (decays rate dts p) <= ((1 - c) * (1 - c)) ^ length dts * lsq p.
Proof.
  intros Hc. revert p. induction dts as [|dt dts IH]; intros p Hf; [right; simpl; unfold decays; simpl; lra|].
  apply Forall_cons in Hf as [H1 Hf]. change (decays rate (dt :: dts) p) with (decays rate dts (decay_pos rate dt p)).
  destruct (IH (decay_pos rate dt p) Hf) as [?|H2]; [by left|]. right.
  destruct (decay_pos_small rate dt p ltac:(lra)) as (_ & _ & H3).
  assert (Hk : c <= Rmin (rate * dt) 1 <= 1) by (unfold Rmin; destruct Rle_dec; lra).
  set (k := Rmin (rate * dt) 1) in *. clearbody k. pose proof (lsq_nonneg p) as Hp.
  assert (H4 : (1 - k) * (1 - k) <= (1 - c) * (1 - c)) by (apply Rmult_le_compat; lra).
  assert (H5 : lsq (decay_pos rate dt p) <= (1 - c) * (1 - c) * lsq p).
  { eapply Rle_trans; [exact H3|]. by apply Rmult_le_compat_r. }
  eapply Rle_trans; [exact H2|].
  apply Rle_trans with (((1 - c) * (1 - c)) ^ length dts * ((1 - c) * (1 - c) * lsq p)).
  - apply Rmult_le_compat_l; [|done]. apply pow_le. apply Rmult_le_pos; lra.
  - apply Req_le. simpl. ring.
Qed.
Lemma decays_gone rate c p : 0 < c → ∃ n, ∀ dts, (n <= length dts)%nat → Forall (λ dt, c <= rate * dt) dts →
  decays rate dts p = vec0.
Proof.
  intros Hc0. set (c' := Rmin c (1 / 2)).
  assert (Hc : 0 < c' < 1 ∧ c' <= c) by (unfold c', Rmin; destruct Rle_dec; lra). clearbody c'.
  set (y := (1 - c') * (1 - c')). assert (Hy : 0 <= y < 1) by (unfold y; nra).
  destruct (pow_lt_1_zero y) with (y := 1 / 10000 / (lsq p + 1)) as [N HN].
  { rewrite Rabs_pos_eq; lra. }
  { apply Rdiv_lt_0_compat; [lra|]. pose proof (lsq_nonneg p). lra. }
  exists (S N). intros dts Hl Hf.
  destruct dts as [|dt ds _] using rev_ind; [simpl in Hl; lia|].
  rewrite app_length in Hl. simpl in Hl. apply Forall_app in Hf as [Hf1 Hf2]. apply Forall_cons in Hf2 as [Hf2 _].
  unfold decays. rewrite foldl_app. simpl. change (foldl _ p ds) with (decays rate ds p).
  destruct (decays_close rate c' ds p) as [E|E].
  - lra.
  - eapply Forall_impl; [exact Hf1|]. simpl. intros. lra.
  - rewrite E. apply decay_zero.
  - destruct (decay_pos_small rate dt (decays rate ds p)) as (_ & Hz & _); [lra|]. apply Hz.
    specialize (HN (length ds) ltac:(lia)). fold y in E. rewrite Rabs_pos_eq in HN by (apply pow_le; lra).
    pose proof (lsq_nonneg p) as P. set (z := y ^ length ds) in *. assert (0 <= z) by (apply pow_le; lra).
    assert (z * (lsq p + 1) < 1 / 10000).
    { apply (Rmult_lt_compat_r (lsq p + 1)) in HN; [|lra]. unfold Rdiv in HN at 1.
      replace (1 / 10000 * / (lsq p + 1) * (lsq p + 1)) with (1 / 10000) in HN by (field; lra). exact HN. }
    assert (z * (lsq p + 1) = z * lsq p + z) by ring. lra.
Qed.
