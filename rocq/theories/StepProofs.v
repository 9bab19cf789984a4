(** Proofs about the fixed steps. *)
From Coq Require Import QArith Qminmax Qround Lqa Sorted.
From Verif Require Import StepModel.
Local Open Scope Q_scope.

(** ** Specification *)
Definition step_times (es : list ev) : list Q := omap (λ e, match e with Step t => Some t | _ => None end) es.
Definition presents (es : list ev) : list Q := omap (λ e, match e with Present t => Some t | _ => None end) es.
(** [n] times from [o] on, [d] apart *)
Definition grid (o d : Q) (n : nat) : list Q := (λ k, o + Qnat k * d) <$> seq 0 n.
(** how many whole [d] fit between [o] and [t] *)
Definition whole (o d t : Q) : nat := Z.to_nat (Qfloor ((t - o) / d)).
(** update times, none before the one before, the first not before [t0] *)
Fixpoint forward (t0 : Q) (ts : list Q) : Prop :=
  match ts with [] => True | t :: ts => t0 <= t ∧ forward t ts end.
(** no two more than [g] apart *)
Fixpoint gaps_within (g t0 : Q) (ts : list Q) : Prop :=
  match ts with [] => True | t :: ts => t - t0 <= g ∧ gaps_within g t ts end.

(** ** Rationals *)
Lemma Qnat_S n : Qnat (S n) == Qnat n + 1.
Proof. unfold Qnat. rewrite Nat2Z.inj_succ, <- Z.add_1_r, inject_Z_plus. reflexivity. Qed.
Lemma Qnat_add a b : Qnat (a + b) == Qnat a + Qnat b.
Proof. unfold Qnat. by rewrite Nat2Z.inj_add, inject_Z_plus. Qed.
Lemma Qnat_le a b : (a ≤ b)%nat → Qnat a <= Qnat b.
Proof. intros. unfold Qnat. rewrite <- Zle_Qle. lia. Qed.
Lemma Qnat_0 : Qnat 0 == 0. Proof. reflexivity. Qed.
Lemma Qnat_nonneg n : 0 <= Qnat n.
Proof. pose proof (Qnat_le 0 n ltac:(lia)). pose proof Qnat_0. lra. Qed.
Lemma Qnat_to_nat z : (0 ≤ z)%Z → Qnat (Z.to_nat z) == inject_Z z.
Proof. intros. unfold Qnat. by rewrite Z2Nat.id. Qed.

Lemma floor_spec x d : 0 < d → inject_Z (Qfloor (x / d)) * d <= x ∧ x < (inject_Z (Qfloor (x / d)) + 1) * d.
Proof.
  intros Hd. pose proof (Qfloor_le (x / d)) as H1. pose proof (Qlt_floor (x / d)) as H2.
  assert (E : x / d * d == x) by (field; lra).
  rewrite inject_Z_plus in H2. change (inject_Z 1) with 1%Q in H2. split.
  - rewrite <- E at 2. apply Qmult_le_compat_r; [done|lra].
  - rewrite <- E at 1. by apply Qmult_lt_compat_r.
Qed.
Lemma floor_unique x d z : 0 < d → inject_Z z * d <= x → x < (inject_Z z + 1) * d → Qfloor (x / d) = z.
Proof.
  intros Hd H1 H2. destruct (floor_spec x d Hd) as [H3 H4]. set (y := Qfloor (x / d)) in *. clearbody y.
  assert (A : inject_Z y * d < (inject_Z z + 1) * d) by lra.
  assert (B : inject_Z z * d < (inject_Z y + 1) * d) by lra.
  apply Qmult_lt_r in A, B; [|done..].
  change 1%Q with (inject_Z 1) in A, B. rewrite <- inject_Z_plus in A, B. rewrite <- Zlt_Qlt in A, B. lia.
Qed.
Lemma floor_nonneg x d : 0 < d → 0 <= x → (0 ≤ Qfloor (x / d))%Z.
Proof.
  intros Hd Hx. destruct (floor_spec x d Hd) as [_ H4]. set (y := Qfloor (x / d)) in *. clearbody y.
  assert (A : 0 * d < (inject_Z y + 1) * d) by lra. apply Qmult_lt_r in A; [|done].
  change 1%Q with (inject_Z 1) in A. change 0%Q with (inject_Z 0) in A. rewrite <- inject_Z_plus in A. rewrite <- Zlt_Qlt in A. lia.
Qed.

(** ** Grids *)
Lemma Forall2_Qeq_fmap {A} (f g : A → Q) l : (∀ x, f x == g x) → Forall2 Qeq (f <$> l) (g <$> l).
Proof. intros H. induction l; constructor; auto. Qed.
Lemma Forall2_Qeq_refl l : Forall2 Qeq l l.
Proof. induction l; constructor; auto. reflexivity. Qed.
Lemma Forall2_Qeq_trans l1 l2 l3 : Forall2 Qeq l1 l2 → Forall2 Qeq l2 l3 → Forall2 Qeq l1 l3.
Proof.
  intros H. revert l3. induction H as [|x y l l' H HF IH]; intros l3 H3; inversion H3; subst; constructor; auto.
  by transitivity y.
Qed.
Lemma Forall2_Qeq_sym l1 l2 : Forall2 Qeq l1 l2 → Forall2 Qeq l2 l1.
Proof. induction 1; constructor; auto. by symmetry. Qed.
Lemma grid_app o o' d a b : o' == o + Qnat a * d → Forall2 Qeq (grid o d a ++ grid o' d b) (grid o d (a + b)).
Proof.
  intros Ho. unfold grid. rewrite seq_app, fmap_app. apply Forall2_app; [apply Forall2_Qeq_refl|].
  cbn [plus]. replace (seq a b) with (Nat.add a <$> seq 0 b) by (by rewrite fmap_add_seq, Nat.add_0_r).
  rewrite <- list_fmap_compose.
  apply Forall2_Qeq_fmap. intros k. cbn [compose]. rewrite Qnat_add, Ho. ring.
Qed.
Lemma grid_proper o o' d n : o == o' → Forall2 Qeq (grid o d n) (grid o' d n).
Proof. intros H. apply Forall2_Qeq_fmap. intros k. by rewrite H. Qed.
Lemma step_times_app a b : step_times (a ++ b) = step_times a ++ step_times b.
Proof. apply omap_app. Qed.
Lemma presents_app a b : presents (a ++ b) = presents a ++ presents b.
Proof. apply omap_app. Qed.

(** ** One sequential update *)
Lemma sq_update_eq c s t :
  0 < c_dt c → 0 <= sq_acc s → sq_paused s = false → sq_last s <= t →
  let n := Qfloor ((t - sq_timestamp s) / c_dt c) in
  ∃ s' es, sq_update c s t = Ok (s', es) ∧
    sq_last s' = t ∧ sq_paused s' = false ∧ 0 <= sq_acc s' ∧ sq_acc s' < c_dt c ∧
    (0 ≤ n)%Z ∧ sq_timestamp s' == sq_timestamp s + inject_Z n * c_dt c ∧
    step_times es = (λ i, sq_timestamp s + step_dt c n * Qnat i) <$> seq 0 (effective c n) ∧
    ∃ i, presents es = [i] ∧ i == t - c_dt c - sq_timestamp s'.
Proof.
  intros Hd Ha Hp Ht. unfold sq_update. rewrite Hp.
  assert (Hm : Qmax (t - sq_last s) 0 == t - sq_last s) by (apply Q.max_l; lra).
  assert (Hne : Qeq_bool (c_dt c) 0 = false).
  { destruct (Qeq_bool (c_dt c) 0) eqn:E; [|done]. apply Qeq_bool_iff in E. lra. }
  rewrite Hne. cbn [negb require_ mbind res_bind].
  set (x := sq_acc s + Qmax (t - sq_last s) 0).
  assert (Hx : x == t - sq_timestamp s). { unfold x, sq_timestamp. rewrite Hm. ring. }
  assert (Hf : Qfloor ((t - sq_timestamp s) / c_dt c) = Qfloor (x / c_dt c)) by (by apply Qfloor_comp; rewrite Hx).
  cbn zeta. rewrite Hf. set (n := Qfloor (x / c_dt c)).
  assert (Hx0 : 0 <= x) by (rewrite Hx; unfold sq_timestamp; lra).
  pose proof (floor_nonneg x (c_dt c) Hd Hx0) as Hn. fold n in Hn.
  destruct (floor_spec x (c_dt c) Hd) as [H1 H2]. fold n in H1, H2.
  rewrite (proj2 (Z.leb_le 0 n) Hn). cbn [require_ mbind res_bind].
  eexists _, _. split; [reflexivity|]. cbn [sq_last sq_acc sq_paused].
  split; [done|]. split; [done|]. split; [lra|]. split; [lra|]. split; [done|].
  split. { unfold sq_timestamp at 1. cbn [sq_last sq_acc]. lra. }
  split.
  { rewrite step_times_app. cbn [step_times omap list_omap]. rewrite app_nil_r.
    induction (seq 0 (effective c n)); [done|]. cbn. by f_equal. }
  exists (interpolation_dt c (sq_timestamp (Stepper t (x - inject_Z n * c_dt c) false)) t (c_dt c)). split.
  { rewrite presents_app.
    assert (Hnil : ∀ l : list nat, presents ((λ i, Step (sq_timestamp s + step_dt c n * Qnat i)) <$> l) = []).
    { induction l as [|? ? IHl]; [done|exact IHl]. }
    by rewrite Hnil. }
  unfold interpolation_dt. apply Q.min_l. unfold sq_timestamp. cbn [sq_last sq_acc]. lra.
Qed.

Lemma effective_le c n : (effective c n ≤ c_cap c)%nat.
Proof. unfold effective. destruct (Z.ltb_spec (Z.of_nat (c_cap c)) n); lia. Qed.
Lemma effective_uncapped c n : (n ≤ Z.of_nat (c_cap c))%Z → effective c n = Z.to_nat n ∧ step_dt c n = c_dt c.
Proof. intros. unfold effective, step_dt. destruct (Z.ltb_spec (Z.of_nat (c_cap c)) n); [lia|done]. Qed.

Lemma whole_add o d t t' n : 0 < d → (0 ≤ n)%Z → n = Qfloor ((t - o) / d) → o + inject_Z n * d <= t → t <= t' →
  whole o d t' = (Z.to_nat n + whole (o + inject_Z n * d) d t')%nat.
Proof.
  intros Hd Hn En H1 H2. unfold whole.
  destruct (floor_spec (t' - (o + inject_Z n * d)) d Hd) as [H3 H4].
  pose proof (floor_nonneg (t' - (o + inject_Z n * d)) d Hd ltac:(lra)) as H5.
  set (k := Qfloor ((t' - (o + inject_Z n * d)) / d)) in *.
  rewrite (floor_unique _ d (n + k)); [by rewrite Z2Nat.inj_add|done|rewrite inject_Z_plus; lra..].
Qed.
Lemma whole_self o d n : 0 < d → (0 <= n)%Z → whole o d (o + inject_Z n * d) = Z.to_nat n.
Proof. intros. unfold whole. rewrite (floor_unique _ d n); [done..|lra|lra]. Qed.

Lemma forward_last ts : ∀ t0, forward t0 ts → t0 <= List.last ts t0.
Proof.
  induction ts as [|t ts IH]; intros t0; [cbn; lra|]. intros [H1 H2].
  pose proof (IH t H2) as H. destruct ts as [|t' ts]; [done|].
  replace (List.last (t :: t' :: ts) t0) with (List.last (t' :: ts) t); [lra|].
  clear. revert t t' t0. induction ts as [|u us IH]; intros; [done|]. cbn [List.last] in *. apply IH.
Qed.
Lemma last_cons_default {A} (ts : list A) : ∀ t t0, List.last (t :: ts) t0 = List.last ts t.
Proof. induction ts as [|u us IH]; intros; [done|]. cbn [List.last] in *. by rewrite IH. Qed.

Lemma sq_run_cons_ok c s o os s1 e1 s2 e2 : sq_do c s o = Ok (s1, e1) → sq_run c s1 os = Ok (s2, e2) →
  sq_run c s (o :: os) = Ok (s2, e1 ++ e2).
Proof. intros H1 H2. cbn [sq_run]. rewrite H1. cbn. by rewrite H2. Qed.

(** Uncapped history. *)
Lemma sq_run_main c ts : ∀ s, 0 < c_dt c → 0 <= sq_acc s → sq_acc s < c_dt c → sq_paused s = false →
  forward (sq_last s) ts → gaps_within (Qnat (c_cap c) * c_dt c) (sq_last s) ts →
  ∃ s' es, sq_run c s (Update <$> ts) = Ok (s', es) ∧
    Forall2 Qeq (step_times es) (grid (sq_timestamp s) (c_dt c) (whole (sq_timestamp s) (c_dt c) (List.last ts (sq_last s)))).
Proof.
  induction ts as [|t ts IH]; intros s Hd Ha Ha' Hp Hf Hg.
  - exists s, []. split; [done|]. cbn [List.last]. unfold whole.
    rewrite (floor_unique _ _ 0%Z); [constructor|done|unfold sq_timestamp; change (inject_Z 0) with 0%Q; lra..].
  - destruct Hf as [Ht Hf]. destruct Hg as [Hgt Hg].
    destruct (sq_update_eq c s t Hd Ha Hp Ht) as (s1 & e1 & E1 & L1 & P1 & A1 & A2 & N1 & T1 & S1 & _).
    set (n := Qfloor ((t - sq_timestamp s) / c_dt c)) in *.
    destruct (floor_spec (t - sq_timestamp s) (c_dt c) Hd) as [F1 F2]. fold n in F1, F2.
    assert (Hn : (n ≤ Z.of_nat (c_cap c))%Z).
    { apply Z.lt_succ_r. rewrite Zlt_Qlt. rewrite <- Z.add_1_r, inject_Z_plus. change (inject_Z 1) with 1%Q. fold (Qnat (c_cap c)).
      apply (Qmult_lt_r _ _ (c_dt c) Hd). unfold sq_timestamp in F1. lra. }
    destruct (effective_uncapped c n Hn) as [Ee Ed]. rewrite Ee, Ed in S1.
    rewrite <- L1 in Hf, Hg.
    destruct (IH s1 Hd A1 A2 P1 Hf Hg) as (s2 & e2 & E2 & S2).
    exists s2, (e1 ++ e2). split; [by apply (sq_run_cons_ok _ _ (Update t) _ s1)|].
    rewrite last_cons_default. rewrite L1 in S2.
    assert (Hlast : t <= List.last ts t) by (apply forward_last; by rewrite <- L1).
    rewrite (whole_add (sq_timestamp s) (c_dt c) t _ n); [|done|done|done|lra|done].
    rewrite step_times_app. eapply Forall2_Qeq_trans; [|apply (grid_app _ (sq_timestamp s1))].
    + apply Forall2_app.
      * rewrite S1. unfold grid. apply Forall2_Qeq_fmap. intros k. ring.
      * eapply Forall2_Qeq_trans; [apply S2|]. unfold whole. rewrite (Qfloor_comp ((List.last ts t - sq_timestamp s1) / c_dt c)
          ((List.last ts t - (sq_timestamp s + inject_Z n * c_dt c)) / c_dt c)) by (by rewrite T1). apply Forall2_Qeq_refl.
    + rewrite T1. by rewrite Qnat_to_nat.
Qed.

(** Any history: the clock, and the times of the steps. *)
Definition within (a b : Q) (l : list Q) : Prop := Forall (λ x, a <= x ∧ x < b) l.
Lemma sorted_app_Q a m b l1 l2 : StronglySorted Qlt l1 → StronglySorted Qlt l2 → within a m l1 → within m b l2 →
  StronglySorted Qlt (l1 ++ l2).
Proof.
  induction l1 as [|x l1 IH]; intros H1 H2 W1 W2; [done|]. inversion H1 as [|? ? ? HF]; subst. inversion W1 as [|? ? [_ ?] W1']; subst. cbn. constructor; [by apply IH|].
  apply Forall_app. split; [done|]. eapply Forall_impl; [exact W2|]. intros y [Hy _]. cbn in *. lra.
Qed.
Lemma within_weaken a b a' b' l : a' <= a → b <= b' → within a b l → within a' b' l.
Proof. intros H1 H2 H. eapply Forall_impl; [exact H|]. cbn. intros x []. split; lra. Qed.
Lemma steps_spread o w k n : 0 < w → (0 < k)%nat → (k ≤ n)%nat →
  StronglySorted Qlt ((λ i, o + w * Qnat i) <$> seq 0 k) ∧ within o (o + w * Qnat k) ((λ i, o + w * Qnat i) <$> seq 0 k).
Proof.
  intros Hw _ _. assert (G : ∀ j, StronglySorted Qlt ((λ i, o + w * Qnat i) <$> seq j k) ∧
    within (o + w * Qnat j) (o + w * Qnat (j + k)) ((λ i, o + w * Qnat i) <$> seq j k)).
  { induction k as [|k IH]; intros j; [split; constructor|]. destruct (IH (S j)) as [I1 I2]. cbn [seq fmap list_fmap].
    replace (j + S k)%nat with (S j + k)%nat by lia.
    assert (HS : o + w * Qnat (S j) == o + w * Qnat j + w) by (rewrite Qnat_S; ring).
    split; constructor.
    - exact I1.
    - eapply Forall_impl; [exact I2|]. intros x [Hx _]. cbn in *. lra.
    - split; [lra|].
      assert (w * Qnat (S j) <= w * Qnat (S j + k)).
      { rewrite !(Qmult_comm w). apply Qmult_le_compat_r; [apply Qnat_le; lia|lra]. }
      lra.
    - eapply within_weaken; [| |exact I2]; lra. }
  destruct (G 0%nat) as [G1 G2]. split; [done|]. eapply within_weaken; [| |exact G2]; [rewrite Qnat_0; lra|cbn; lra].
Qed.

Lemma sq_update_times c s t : 0 < c_dt c → (0 < c_cap c)%nat → 0 <= sq_acc s → sq_paused s = false → sq_last s <= t →
  ∃ s' es, sq_update c s t = Ok (s', es) ∧ sq_last s' = t ∧ sq_paused s' = false ∧ 0 <= sq_acc s' ∧ sq_acc s' < c_dt c ∧
    sq_timestamp s' == sq_timestamp s + Qnat (whole (sq_timestamp s) (c_dt c) t) * c_dt c ∧
    length (step_times es) = min (c_cap c) (whole (sq_timestamp s) (c_dt c) t) ∧
    StronglySorted Qlt (step_times es) ∧ within (sq_timestamp s) (sq_timestamp s') (step_times es).
Proof.
  intros Hd Hc Ha Hp Ht. destruct (sq_update_eq c s t Hd Ha Hp Ht) as (s1 & e1 & E1 & L1 & P1 & A1 & A2 & N1 & T1 & S1 & _).
  exists s1, e1. split; [done|]. split; [done|]. split; [done|]. split; [done|]. split; [done|].
  set (n := Qfloor ((t - sq_timestamp s) / c_dt c)) in *.
  assert (Hw : whole (sq_timestamp s) (c_dt c) t = Z.to_nat n) by done. rewrite Hw.
  split; [by rewrite Qnat_to_nat|]. rewrite S1. split.
  { rewrite fmap_length, seq_length. unfold effective. destruct (Z.ltb_spec (Z.of_nat (c_cap c)) n); lia. }
  destruct (Z.eq_dec n 0%Z) as [Hn0|Hn0].
  { rewrite Hn0. replace (effective c 0%Z) with 0%nat; [split; constructor|].
    unfold effective. destruct (Z.ltb_spec (Z.of_nat (c_cap c)) 0%Z); lia. }
  assert (Hn1 : 1 <= inject_Z n). { change 1%Q with (inject_Z 1). rewrite <- Zle_Qle. lia. }
  assert (He : (0 < effective c n)%nat). { unfold effective. destruct (Z.ltb_spec (Z.of_nat (c_cap c)) n); lia. }
  assert (Hw2 : 0 < step_dt c n ∧ step_dt c n * Qnat (effective c n) == inject_Z n * c_dt c).
  { unfold step_dt, effective. destruct (Z.ltb_spec (Z.of_nat (c_cap c)) n).
    - assert (Hcq : 1 <= Qnat (c_cap c)). { change 1%Q with (inject_Z 1). unfold Qnat. rewrite <- Zle_Qle. lia. }
      split.
      + unfold Qdiv. apply Qmult_lt_0_compat; [|apply Qinv_lt_0_compat; lra]. apply Qmult_lt_0_compat; lra.
      + field. lra.
    - split; [done|]. rewrite Qnat_to_nat by lia. ring. }
  destruct Hw2 as [Hw2 Hw3].
  destruct (steps_spread (sq_timestamp s) (step_dt c n) (effective c n) (effective c n) Hw2 He ltac:(lia)) as [G1 G2].
  split; [done|]. eapply within_weaken; [| |exact G2]; lra.
Qed.

Lemma sq_run_times c ts : ∀ s, 0 < c_dt c → (0 < c_cap c)%nat → 0 <= sq_acc s → sq_paused s = false → forward (sq_last s) ts →
  ts ≠ [] →
  ∃ s' es, sq_run c s (Update <$> ts) = Ok (s', es) ∧
    let t := List.last ts (sq_last s) in
    sq_timestamp s' == sq_timestamp s + Qnat (whole (sq_timestamp s) (c_dt c) t) * c_dt c ∧
    sq_timestamp s' <= t ∧ t < sq_timestamp s' + c_dt c ∧
    (length (step_times es) ≤ whole (sq_timestamp s) (c_dt c) t)%nat ∧
    (length (step_times es) ≤ c_cap c * length ts)%nat ∧
    StronglySorted Qlt (step_times es) ∧ within (sq_timestamp s) (sq_timestamp s') (step_times es) ∧
    sq_last s' = t ∧ sq_paused s' = false ∧ 0 <= sq_acc s' ∧ sq_acc s' < c_dt c.
Proof.
  induction ts as [|t ts IH]; intros s Hd Hc Ha Hp Hf Hne; [done|]. destruct Hf as [Ht Hf].
  destruct (sq_update_times c s t Hd Hc Ha Hp Ht) as (s1 & e1 & E1 & L1 & P1 & A1 & A2 & T1 & N1 & S1 & W1).
  destruct (decide (ts = [])) as [->|Hts].
  { exists s1, (e1 ++ []). split; [by apply (sq_run_cons_ok _ _ (Update t) _ s1)|]. rewrite app_nil_r. cbn [List.last length].
    rewrite N1. split; [done|]. split; [unfold sq_timestamp; rewrite L1; lra|]. split; [unfold sq_timestamp; rewrite L1; lra|].
    split; [lia|]. split; [lia|]. done. }
  assert (Hf1 : forward (sq_last s1) ts) by (by rewrite L1).
  destruct (IH s1 Hd Hc A1 P1 Hf1 Hts) as (s2 & e2 & E2 & T2 & B1 & B2 & N2 & N3 & S2 & W2 & L2 & P2 & A3 & A4).
  exists s2, (e1 ++ e2). split; [by apply (sq_run_cons_ok _ _ (Update t) _ s1)|]. cbn zeta. rewrite last_cons_default. rewrite L1 in *.
  pose proof (forward_last ts t Hf) as Hlast.
  pose proof (floor_nonneg (t - sq_timestamp s) (c_dt c) Hd ltac:(unfold sq_timestamp; lra)) as Hn.
  destruct (floor_spec (t - sq_timestamp s) (c_dt c) Hd) as [F1 _].
  set (n := Qfloor ((t - sq_timestamp s) / c_dt c)) in *.
  assert (Hw : whole (sq_timestamp s) (c_dt c) (List.last ts t) =
     (whole (sq_timestamp s) (c_dt c) t + whole (sq_timestamp s1) (c_dt c) (List.last ts t))%nat).
  { rewrite (whole_add (sq_timestamp s) (c_dt c) t _ n); [|done|done|done|lra|done]. f_equal.
    unfold whole. f_equal. apply Qfloor_comp. rewrite T1.
    assert (Hq : Qnat (whole (sq_timestamp s) (c_dt c) t) == inject_Z n) by (apply Qnat_to_nat; lia).
    by rewrite Hq. }
  rewrite Hw. split. { rewrite Qnat_add, T2. lra. }
  split; [done|]. split; [done|]. rewrite step_times_app, app_length, N1.
  split; [lia|]. split. { cbn [length]. lia. }
  assert (M1 : sq_timestamp s <= sq_timestamp s1).
  { rewrite T1. pose proof (Qnat_nonneg (whole (sq_timestamp s) (c_dt c) t)).
    pose proof (Qmult_le_0_compat _ _ H (Qlt_le_weak _ _ Hd)). lra. }
  assert (M2 : sq_timestamp s1 <= sq_timestamp s2).
  { rewrite T2. pose proof (Qnat_nonneg (whole (sq_timestamp s1) (c_dt c) (List.last ts t))).
    pose proof (Qmult_le_0_compat _ _ H (Qlt_le_weak _ _ Hd)). lra. }
  split; [by eapply sorted_app_Q|].
  split; [apply Forall_app; split; eapply within_weaken; [| |exact W1| | |exact W2]; lra|]. done.
Qed.

(** ** Worker *)
Lemma wk_steps_times k : ∀ sim d, Forall2 Qeq (step_times (wk_steps sim d k)) ((λ i, sim + d * Qnat i) <$> seq 0 k).
Proof.
  induction k as [|k IH]; intros sim d; [constructor|]. cbn [wk_steps seq fmap list_fmap]. constructor.
  - rewrite Qnat_0. ring.
  - rewrite <- (fmap_S_seq 0 k), <- list_fmap_compose. eapply Forall2_Qeq_trans; [apply IH|].
    apply Forall2_Qeq_fmap. intros i. cbn [compose]. rewrite Qnat_S. ring.
Qed.
(** State in step with its own clock. *)
Definition wk_ok (c : cfg) (w : worker) : Prop :=
  wk_paused w = false ∧ 0 <= wk_acc w ∧ wk_acc w < c_dt c ∧ wk_sim w == wk_last w - wk_acc w.
Lemma wk_turn_eq c w t : 0 < c_dt c → wk_ok c w →
  let n := Qfloor ((t - wk_sim w) / c_dt c) in
  ∃ w' es, wk_turn c w t [] = Ok (w', es) ∧ wk_ok c w' ∧ wk_last w' = t ∧
    wk_sim w' == wk_sim w + inject_Z n * c_dt c ∧ wk_sim w' <= t ∧ t < wk_sim w' + c_dt c ∧
    Forall2 Qeq (step_times es) ((λ i, wk_sim w + step_dt c n * Qnat i) <$> seq 0 (effective c n)).
Proof.
  intros Hd (Hp & Ha & Ha' & Hs). unfold wk_turn. cbn [wk_msgs]. unfold wk_advance. cbn [wk_paused wk_last wk_current wk_acc wk_sim].
  rewrite Hp.
  assert (Hne : Qeq_bool (c_dt c) 0 = false).
  { destruct (Qeq_bool (c_dt c) 0) eqn:E; [|done]. apply Qeq_bool_iff in E. lra. }
  rewrite Hne. cbn [negb require_ mbind res_bind]. set (x := wk_acc w + (t - wk_last w)).
  assert (Hx : x == t - wk_sim w). { unfold x. rewrite Hs. ring. }
  assert (Hf : Qfloor ((t - wk_sim w) / c_dt c) = Qfloor (x / c_dt c)) by (by apply Qfloor_comp; rewrite Hx).
  cbn zeta. rewrite Hf. set (n := Qfloor (x / c_dt c)).
  destruct (floor_spec x (c_dt c) Hd) as [H1 H2]. fold n in H1, H2.
  eexists _, _. split; [reflexivity|]. unfold wk_ok. cbn [wk_paused wk_last wk_current wk_acc wk_sim app].
  split. { split_and!; [done|lra|lra|lra]. }
  split; [done|]. split; [lra|]. split; [lra|]. split; [lra|]. apply wk_steps_times.
Qed.
Definition quiet (ts : list Q) : list (Q * list wmsg) := (λ t, (t, [])) <$> ts.
Lemma wk_run_main c ts : ∀ w, 0 < c_dt c → wk_ok c w →
  forward (wk_last w) ts → gaps_within (Qnat (c_cap c) * c_dt c) (wk_last w) ts →
  ∃ w' es, wk_run c w (quiet ts) = Ok (w', es) ∧ wk_ok c w' ∧
    Forall2 Qeq (step_times es) (grid (wk_sim w) (c_dt c) (whole (wk_sim w) (c_dt c) (List.last ts (wk_last w)))).
Proof.
  induction ts as [|t ts IH]; intros w Hd Hw Hf Hg.
  - exists w, []. split; [done|]. split; [done|]. cbn [List.last]. unfold whole. destruct Hw as (_ & ? & ? & Hs).
    rewrite (floor_unique _ _ 0%Z); [constructor|done|rewrite Hs; change (inject_Z 0) with 0%Q; lra..].
  - destruct Hf as [Ht Hf]. destruct Hg as [Hgt Hg].
    destruct (wk_turn_eq c w t Hd Hw) as (w1 & e1 & E1 & O1 & L1 & T1 & B1 & B2 & S1).
    set (n := Qfloor ((t - wk_sim w) / c_dt c)) in *. destruct Hw as (Hp & Ha & Ha' & Hs).
    destruct (floor_spec (t - wk_sim w) (c_dt c) Hd) as [F1 F2]. fold n in F1, F2.
    assert (Hn0 : (0 ≤ n)%Z) by (apply floor_nonneg; [done|lra]).
    assert (Hn : (n ≤ Z.of_nat (c_cap c))%Z).
    { apply Z.lt_succ_r. rewrite Zlt_Qlt. rewrite <- Z.add_1_r, inject_Z_plus. change (inject_Z 1) with 1%Q. fold (Qnat (c_cap c)).
      apply (Qmult_lt_r _ _ (c_dt c) Hd). lra. }
    destruct (effective_uncapped c n Hn) as [Ee Ed]. rewrite Ee, Ed in S1.
    rewrite <- L1 in Hf, Hg.
    destruct (IH w1 Hd O1 Hf Hg) as (w2 & e2 & E2 & O2 & S2).
    exists w2, (e1 ++ e2). split. { cbn [quiet fmap list_fmap wk_run]. rewrite E1. cbn. fold (quiet ts). by rewrite E2. }
    split; [done|]. rewrite last_cons_default. rewrite L1 in S2.
    assert (Hlast : t <= List.last ts t) by (apply forward_last; by rewrite <- L1).
    rewrite (whole_add (wk_sim w) (c_dt c) t _ n); [|done|done|done|lra|done].
    rewrite step_times_app. eapply Forall2_Qeq_trans; [|apply (grid_app _ (wk_sim w1))].
    + apply Forall2_app.
      * eapply Forall2_Qeq_trans; [exact S1|]. unfold grid. apply Forall2_Qeq_fmap. intros k. ring.
      * eapply Forall2_Qeq_trans; [apply S2|]. unfold whole. rewrite (Qfloor_comp ((List.last ts t - wk_sim w1) / c_dt c)
          ((List.last ts t - (wk_sim w + inject_Z n * c_dt c)) / c_dt c)) by (by rewrite T1). apply Forall2_Qeq_refl.
    + rewrite T1. by rewrite Qnat_to_nat.
Qed.

Lemma wk_msgs_app ms1 : ∀ w ms2, wk_msgs w (ms1 ++ ms2) =
  (let '(w1, e1) := wk_msgs w ms1 in let '(w2, e2) := wk_msgs w1 ms2 in (w2, e1 ++ e2)).
Proof.
  induction ms1 as [|m ms1 IH]; intros w ms2; cbn [wk_msgs app].
  - by destruct (wk_msgs w ms2).
  - destruct (wk_msg w m) as [w1 e1]. rewrite IH. destruct (wk_msgs w1 ms1) as [w2 e2]. destruct (wk_msgs w2 ms2). by rewrite app_assoc.
Qed.
Lemma wk_msgs_current ms : ∀ w, (∀ m, m ∈ ms → ∀ t, m ≠ MTimeSource t) → wk_current (wk_msgs w ms).1 = wk_current w.
Proof.
  induction ms as [|m ms IH]; intros w H; [done|]. cbn [wk_msgs].
  destruct (wk_msg w m) as [w1 e1] eqn:E. specialize (IH w1). destruct (wk_msgs w1 ms) as [w2 e2]. cbn [fst] in *. rewrite IH.
  - destruct m as [[]| |t]; injection E as <- _; try done. by destruct (H (MTimeSource t) ltac:(left) t).
  - intros m' Hm'. apply H. by right.
Qed.
(** Resuming starts a new clock at the time of the turn. *)
Lemma wk_resume_main c w t ms : 0 < c_dt c → (∀ m, m ∈ ms → ∀ u, m ≠ MTimeSource u) →
  ∃ w' es, wk_turn c w t (ms ++ [MPause false]) = Ok (w', es) ∧ wk_ok c w' ∧ wk_sim w' == t ∧ wk_last w' = t ∧
    step_times es = step_times (wk_msgs (Worker (wk_last w) t (wk_acc w) (wk_sim w) (wk_paused w)) ms).2.
Proof.
  intros Hd Hms. unfold wk_turn. rewrite wk_msgs_app.
  set (w0 := Worker (wk_last w) t (wk_acc w) (wk_sim w) (wk_paused w)).
  pose proof (wk_msgs_current ms w0 Hms) as Hcur. destruct (wk_msgs w0 ms) as [w1 e1]. cbn [fst snd] in *. cbn [wk_msgs wk_msg].
  rewrite Hcur. unfold w0. cbn [wk_current]. unfold wk_advance. cbn [wk_paused wk_last wk_current wk_acc wk_sim].
  assert (Hne : Qeq_bool (c_dt c) 0 = false).
  { destruct (Qeq_bool (c_dt c) 0) eqn:E; [|done]. apply Qeq_bool_iff in E. lra. }
  rewrite Hne. cbn [negb require_ mbind res_bind].
  assert (Hn : Qfloor ((0 + (t - t)) / c_dt c) = 0%Z).
  { apply floor_unique; [done|change (inject_Z 0) with 0%Q; lra..]. }
  rewrite Hn. change (inject_Z 0) with 0%Q.
  assert (He : effective c 0%Z = 0%nat). { unfold effective. destruct (Z.ltb_spec (Z.of_nat (c_cap c)) 0%Z); lia. }
  rewrite He. cbn [wk_steps]. rewrite !app_nil_r.
  eexists _, _. split; [reflexivity|]. unfold wk_ok. cbn [wk_paused wk_last wk_current wk_acc wk_sim]. split_and!; try done; lra.
Qed.
(** Paused: the only steps are the ones asked for. *)
Definition is_step_msg (m : wmsg) : bool := match m with MStep => true | _ => false end.
Lemma wk_msgs_paused ms : ∀ w, wk_paused w = true → Forall (λ m, m ≠ MPause false) ms →
  wk_paused (wk_msgs w ms).1 = true ∧ length (step_times (wk_msgs w ms).2) = length (filter is_step_msg ms).
Proof.
  induction ms as [|m ms IH]; intros w Hp HF; [done|]. inversion HF as [|? ? Hm HF']; subst. cbn [wk_msgs].
  destruct (wk_msg w m) as [w1 e1] eqn:E.
  assert (H1 : wk_paused w1 = true ∧ length (step_times e1) = length (filter is_step_msg [m])).
  { destruct m as [[]| |]; try done; injection E as <- <-; done. }
  destruct H1 as [H1 H2]. specialize (IH w1 H1 HF'). destruct (wk_msgs w1 ms) as [w2 e2]. cbn [fst snd] in *. destruct IH as [I1 I2].
  split; [done|]. rewrite step_times_app, app_length, H2, I2. change (m :: ms) with ([m] ++ ms). by rewrite filter_app, app_length.
Qed.
Lemma wk_run_paused c ts : ∀ w, wk_paused w = true → Forall (λ tm, Forall (λ m, m ≠ MPause false) tm.2) ts →
  ∃ w' es, wk_run c w ts = Ok (w', es) ∧ wk_paused w' = true ∧
    length (step_times es) = length (filter is_step_msg (concat (snd <$> ts))).
Proof.
  induction ts as [|[t ms] ts IH]; intros w Hp HF; [by exists w, []|]. inversion HF as [|? ? Hm HF']; subst. cbn [snd] in Hm.
  cbn [wk_run]. unfold wk_turn. set (w0 := Worker (wk_last w) t (wk_acc w) (wk_sim w) (wk_paused w)).
  destruct (wk_msgs_paused ms w0 Hp Hm) as [H1 H2]. destruct (wk_msgs w0 ms) as [w1 e1]. cbn [fst snd] in *.
  unfold wk_advance. rewrite H1. cbn [mbind res_bind].
  destruct (IH w1 H1 HF') as (w2 & e2 & E2 & P2 & N2). rewrite E2. cbn [mbind res_bind].
  eexists _, _. split; [reflexivity|]. split; [done|]. rewrite !step_times_app, !app_length, H2, N2. cbn [fmap list_fmap concat].
  rewrite filter_app, app_length. cbn. lia.
Qed.
