(** The delay of the presentation. *)
From Verif Require Import Outcome BoxModel GeoModel RotSpec RotProofs PresModel PresSpec.
From Coq Require Import Reals Lra Psatz.
Local Open Scope R_scope.

Lemma rceil_spec x : x <= rceil x < x + 1.
Proof. unfold rceil. destruct (base_Int_part (- x)). lra. Qed.
Lemma rceil_is x k : IZR k - 1 < x <= IZR k → rceil x = IZR k.
Proof.
  intros [H1 H2]. pose proof (rceil_spec x) as [H3 H4]. unfold rceil in *. rewrite <- opp_IZR in *. f_equal.
  assert (- Int_part (- x) < k + 1)%Z by (apply lt_IZR; rewrite plus_IZR; lra).
  assert (k < - Int_part (- x) + 1)%Z by (apply lt_IZR; rewrite plus_IZR; lra). lia.
Qed.

Lemma foldl_plus l a : foldl Rplus a l = a + fold_right Rplus 0 l.
Proof. revert a. induction l as [|x l IH]; intros a; simpl; [lra|]. rewrite IH. lra. Qed.
Lemma sum_total l : sum l = fold_right Rplus 0 l.
Proof. unfold sum. rewrite foldl_plus. lra. Qed.
Lemma average_mean l : average l = mean l.
Proof. unfold average, mean. by rewrite sum_total. Qed.
Lemma deviation_spread l : deviation l = spread l.
Proof.
  unfold deviation, spread. rewrite average_mean. f_equal. apply map_ext. intros. by rewrite average_mean.
Qed.

(** Sums of functions of the samples *)
Lemma total_le (f g : R → R) l : (∀ x, x ∈ l → f x <= g x) →
  fold_right Rplus 0 (map f l) <= fold_right Rplus 0 (map g l).
Proof.
  induction l as [|x l IH]; intros H; simpl; [lra|].
  pose proof (H x ltac:(left)). specialize (IH (λ y Hy, H y ltac:(by right))). lra.
Qed.
Lemma total_affine a b l : fold_right Rplus 0 (map (λ x, a * x + b) l) = a * fold_right Rplus 0 l + b * INR (length l).
Proof. induction l as [|x l IH]; [simpl; lra|]. cbn [map fold_right length]. rewrite IH, S_INR. lra. Qed.
Lemma total_id l : fold_right Rplus 0 (map (λ x, x) l) = fold_right Rplus 0 l.
Proof. by rewrite map_id. Qed.
Lemma len_pos {A} (l : list A) : l ≠ [] → 0 < INR (length l).
Proof. intros H. apply (lt_INR 0). destruct l; simpl; [done|lia]. Qed.

Lemma mean_unit l : l ≠ [] → (∀ x, x ∈ l → 0 <= x <= 1) → 0 <= mean l <= 1.
Proof.
  intros Hne H. pose proof (len_pos l Hne) as Hp. unfold mean.
  assert (0 <= fold_right Rplus 0 l <= INR (length l)) as [A B].
  { rewrite <- (total_id l). split.
    - apply Rle_trans with (fold_right Rplus 0 (map (λ x, 0 * x + 0) l)); [rewrite total_affine; lra|].
      apply total_le. intros x Hx. specialize (H x Hx). lra.
    - apply Rle_trans with (fold_right Rplus 0 (map (λ x, 0 * x + 1) l)); [|rewrite total_affine; lra].
      apply total_le. intros x Hx. specialize (H x Hx). lra. }
  split; [by apply Rle_mult_inv_pos|]. apply (Rmult_le_reg_r (INR (length l))); [done|].
  unfold Rdiv. rewrite Rmult_assoc, Rinv_l; lra.
Qed.
Lemma spread_bound l : l ≠ [] → (∀ x, x ∈ l → 0 <= x <= 1) → 0 <= spread l <= 2 * mean l * (1 - mean l).
Proof.
  intros Hne H. pose proof (len_pos l Hne) as Hp. pose proof (mean_unit l Hne H) as Hm.
  unfold spread. set (m := mean l) in *. unfold mean at 1 2. rewrite map_length.
  assert (Em : fold_right Rplus 0 l = m * INR (length l)) by (unfold m, mean; field; lra).
  split.
  - apply Rle_mult_inv_pos; [|done].
    apply Rle_trans with (fold_right Rplus 0 (map (λ x, 0 * x + 0) l)); [rewrite total_affine; lra|].
    apply total_le. intros x Hx. pose proof (Rabs_pos (x - m)). lra.
  - apply (Rmult_le_reg_r (INR (length l))); [done|]. unfold Rdiv. rewrite Rmult_assoc, Rinv_l, Rmult_1_r by lra.
    apply Rle_trans with (fold_right Rplus 0 (map (λ x, (1 - 2 * m) * x + m) l)).
    + apply total_le. intros x Hx. specialize (H x Hx). unfold Rabs. destruct Rcase_abs; nra.
    + rewrite total_affine, Em. apply Req_le. ring.
Qed.
Lemma level_bound l : l ≠ [] → (∀ x, x ∈ l → 0 <= x <= 1) → 0 <= mean l + spread l <= 9 / 8.
Proof.
  intros Hne H. pose proof (mean_unit l Hne H). pose proof (spread_bound l Hne H).
  set (m := mean l) in *. set (d := spread l) in *. split; [lra|].
  pose proof (Rle_0_sqr (m - 3 / 4)) as S. unfold Rsqr in S. lra.
Qed.
Lemma target_spec l dt : 0 < dt →
  mean l + spread l <= target_delay l dt < mean l + spread l + dt ∧ multiple (target_delay l dt) dt.
Proof.
  intros Hdt. unfold target_delay. rewrite average_mean, deviation_spread.
  set (x := mean l + spread l). pose proof (rceil_spec (x / dt)) as [A B]. split; [split|].
  - apply (Rmult_le_compat_r dt) in A; [|lra]. unfold Rdiv in A at 1. rewrite Rmult_assoc, Rinv_l, Rmult_1_r in A; lra.
  - apply (Rmult_lt_compat_r dt) in B; [|lra]. rewrite Rmult_plus_distr_r in B. unfold Rdiv in B at 2.
    rewrite Rmult_assoc, Rinv_l, Rmult_1_r in B; lra.
  - unfold rceil. exists (- Int_part (- (x / dt)))%Z. by rewrite opp_IZR.
Qed.

Lemma rmin_unit r : 0 <= r → 0 <= Rmin r 1 <= 1.
Proof. intros H. unfold Rmin. destruct Rle_dec; lra. Qed.
Lemma adjust_spec T d a el dt : 0 <= el →
  let r := adjust T d a el dt in
  amid d r.1 T ∧
  (r.2 = false → r.1 = T ∨ (r.1 = d ∧ a = false ∧ Rabs (T - d) <= dt)) ∧
  (r.2 = true → 1 / 100000 <= Rabs (T - r.1)) ∧
  (a = true ∨ dt < Rabs (T - d) → r.1 = T ∨ T - r.1 = (1 - Rmin ((if rltb d T then 5 else 2) * el) 1) * (T - d)).
Proof.
  intros Hel. unfold adjust.
  destruct (a || rltb dt (Rabs (T - d))) eqn:E; simpl.
  - set (k := Rmin ((if rltb 0 (T - d) then 5 else 2) * el) 1).
    assert (Hk : 0 <= k <= 1) by (unfold k; apply rmin_unit; destruct (rltb 0 (T - d)); lra).
    assert (Ek : k = Rmin ((if rltb d T then 5 else 2) * el) 1).
    { unfold k. f_equal. f_equal. unfold rltb. destruct (Rlt_dec 0 (T - d)), (Rlt_dec d T); try done; lra. }
    destruct (rltb (Rabs (T - (d + (T - d) * k))) (1 / 100000)) eqn:E2; simpl.
    + split_and!; [|by left|done|by left]. unfold amid. destruct (Rle_dec d T); lra.
    + apply rltb_false in E2. split_and!; [|done|intros; lra|intros _; right; rewrite <- Ek; ring].
      unfold amid. destruct (Rle_dec d T); [left|right]; nra.
  - apply orb_false_iff in E as [-> E]. apply rltb_false in E. split_and!.
    + unfold amid. destruct (Rle_dec d T); lra.
    + intros _. right. done.
    + done.
    + intros [?|?]; [done|lra].
Qed.

Definition unit_list (l : list R) : Prop := ∀ x, x ∈ l → 0 <= x <= 1.
Lemma push_unit l x : unit_list l → 0 <= x → unit_list (push_sample l (Rmin x 1)).
Proof.
  intros H Hx y Hy. destruct l as [|z l]; [by apply elem_of_nil in Hy|]. simpl in Hy.
  apply elem_of_app in Hy as [Hy|Hy%elem_of_list_singleton]; [apply H; by right|]. subst y. by apply rmin_unit.
Qed.
Lemma push_length l x : length (push_sample l x) = length l.
Proof. destruct l; simpl; [done|]. rewrite app_length. simpl. lia. Qed.
Lemma samples0_unit : unit_list samples0.
Proof. intros x Hx. apply elem_of_replicate in Hx as [-> _]. lra. Qed.

Record okst (dt : R) (s : pst) : Prop := {
  ok_len : length (p_samples s) = 48%nat;
  ok_unit : unit_list (p_samples s);
  ok_delay : 0 <= p_delay s < 9 / 8 + dt }.
Lemma okst_init dt t : 0 < dt → okst dt (pst0 t).
Proof. split; simpl; [done|apply samples0_unit|lra]. Qed.
Lemma target_bounds l dt : 0 < dt → length l = 48%nat → unit_list l → 0 <= target_delay l dt < 9 / 8 + dt.
Proof.
  intros Hdt Hl Hu. assert (l ≠ []) by (intros ->; done).
  pose proof (target_spec l dt Hdt) as [? _]. pose proof (level_bound l ltac:(done) Hu). lra.
Qed.
Lemma update_okst dt s now : 0 < dt → okst dt s → p_last s <= now → p_sim s <= now →
  okst dt (papply dt s (Update now)).1.
Proof.
  intros Hdt [A B C] H1 H2. simpl. destruct (p_paused s); [by split|]. destruct (p_due s); [|by split].
  simpl. assert (L : length (push_sample (p_samples s) (Rmin (now - p_sim s) 1)) = 48%nat) by (by rewrite push_length).
  assert (U : unit_list (push_sample (p_samples s) (Rmin (now - p_sim s) 1))) by (apply push_unit; [done|lra]).
  split; simpl; [done..|].
  pose proof (target_bounds _ _ Hdt L U) as T. set (T' := target_delay _ _) in *.
  destruct (adjust_spec T' (p_delay s) (p_adjusting s) (Rmin (now - p_last s) 1) dt) as (Hb & _); [apply rmin_unit; lra|].
  unfold amid in Hb. lra.
Qed.
Lemma run_okst dt os s : 0 < dt → okst dt s → sane (p_last s) (p_sim s) os → okst dt (prun dt s os).
Proof.
  intros Hdt. revert s. induction os as [|o os IH]; intros s Hs Ho; [done|].
  unfold prun. simpl. change (okst dt (prun dt (papply dt s o).1 os)). destruct o as [t|now|b]; simpl in Ho.
  - apply IH; [by destruct Hs|]. simpl. apply Ho.
  - destruct Ho as (H1 & H2 & H3). apply IH; [by apply update_okst|].
    assert (E : p_sim (papply dt s (Update now)).1 = p_sim s) by (simpl; destruct (p_paused s), (p_due s); done).
    rewrite E. done.
  - apply IH; [|done]. split; simpl; [done|apply samples0_unit|lra].
Qed.

Lemma push_window (s0 obs : list R) x : (0 < length s0)%nat →
  push_sample (drop (length obs) (s0 ++ obs)) x = drop (length (obs ++ [x])) (s0 ++ obs ++ [x]).
Proof.
  intros Hl. assert (H : (length obs < length (s0 ++ obs))%nat) by (rewrite app_length; lia).
  rewrite (app_assoc s0 obs [x]). rewrite app_length. simpl. rewrite Nat.add_1_r.
  set (l := s0 ++ obs) in *. clearbody l. revert H. generalize (length obs) as n. clear.
  induction l as [|y l IH]; intros n H; simpl in H; [lia|]. destruct n as [|n]; [done|]. simpl. apply IH. lia.
Qed.
Lemma run_samples dt os s seen : p_samples s = drop (length seen) (samples0 ++ seen) →
  p_samples (prun dt s os) =
    (let obs := observed (p_sim s) (p_due s) (p_paused s) seen os in drop (length obs) (samples0 ++ obs)).
Proof.
  revert s seen. induction os as [|o os IH]; intros s seen H; [done|].
  change (prun dt s (o :: os)) with (prun dt (papply dt s o).1 os). destruct o as [t|now|b].
  - by rewrite (IH _ seen).
  - simpl. destruct (p_paused s) eqn:Ep; simpl.
    + rewrite (IH _ seen) by done. simpl. by rewrite Ep.
    + destruct (p_due s) eqn:Ed; simpl.
      * rewrite (IH _ (seen ++ [Rmin (now - p_sim s) 1])); [simpl; by rewrite Ep|]. simpl. rewrite H.
        apply push_window. unfold samples0. rewrite replicate_length. lia.
      * rewrite (IH _ seen) by done. simpl. by rewrite Ep.
  - simpl. by rewrite (IH _ []).
Qed.

(** A steady target is reached. *)
Definition adjusts (T dt : R) (els : list R) (d : R) (a : bool) : R * bool :=
  foldl (λ r el, adjust T r.1 r.2 el dt) (d, a) els.
Lemma adjust_idle T el dt : 0 < dt → adjust T T false el dt = (T, false).
Proof. intros H. unfold adjust. rewrite Rminus_diag_eq by done. rewrite Rabs_R0. by rewrite (proj2 (rltb_false dt 0)) by lra. Qed.
Lemma adjusts_idle T dt els : 0 < dt → adjusts T dt els T false = (T, false).
Proof. intros H. unfold adjusts. induction els as [|e els IH]; [done|]. simpl. by rewrite adjust_idle. Qed.
Lemma adjusts_close T dt els d e : 0 < dt → 0 < e → e <= 1 / 2 → Forall (λ el, e <= el) els →
  adjusts T dt els d true = (T, false) ∨
  (∃ d', adjusts T dt els d true = (d', true) ∧ Rabs (T - d') <= (1 - 2 * e) ^ length els * Rabs (T - d) ∧
     (els ≠ [] → 1 / 100000 <= Rabs (T - d'))).
Proof.
  intros Hdt He He2. revert d. induction els as [|el els IH]; intros d Hf; [right; exists d; split_and!; [done|simpl; lra|done]|].
  apply Forall_cons in Hf as [H1 Hf].
  change (adjusts T dt (el :: els) d true) with
    (foldl (λ r el, adjust T r.1 r.2 el dt) (adjust T d true el dt) els).
  destruct (adjust_spec T d true el dt ltac:(lra)) as (_ & A & B & C).
  destruct (adjust T d true el dt) as [d1 a1] eqn:E. simpl in *. destruct a1.
  - change (foldl _ (d1, true) els) with (adjusts T dt els d1 true).
    destruct (IH d1 Hf) as [?|(d' & E1 & E2 & E3)]; [by left|]. right. exists d'. split_and!; [done| |].
    + destruct C as [->|C]; [by left|..].
      * specialize (B eq_refl). rewrite Rminus_diag_eq, Rabs_R0 in B by done. lra.
      * assert (Hk : 2 * e <= Rmin ((if rltb d T then 5 else 2) * el) 1 <= 1).
        { unfold Rmin. destruct Rle_dec; destruct (rltb d T); lra. }
        set (k := Rmin _ 1) in *.
        assert (Rabs (T - d1) <= (1 - 2 * e) * Rabs (T - d)).
        { rewrite C, Rabs_mult, (Rabs_pos_eq (1 - k)) by lra. apply Rmult_le_compat_r; [apply Rabs_pos|lra]. }
        apply Rle_trans with ((1 - 2 * e) ^ length els * Rabs (T - d1)); [done|].
        apply Rle_trans with ((1 - 2 * e) ^ length els * ((1 - 2 * e) * Rabs (T - d))).
        { apply Rmult_le_compat_l; [apply pow_le; lra|done]. }
        apply Req_le. simpl. ring.
    + intros _. destruct els as [|e2 els]; [|by apply E3].
      unfold adjusts in E1. simpl in E1. injection E1 as <-. by apply B.
  - destruct (A eq_refl) as [->|(_ & ? & _)]; [|done]. left.
    change (foldl _ (T, false) els) with (adjusts T dt els T false). by apply adjusts_idle.
Qed.
Lemma adjusts_reach T dt d e : 0 < dt → 0 < e → ∃ n, ∀ els, (n <= length els)%nat → Forall (λ el, e <= el) els →
  (adjusts T dt els d true).1 = T ∧ (adjusts T dt els d true).2 = false.
Proof.
  intros Hdt He. set (c := Rmin e (1 / 4)).
  assert (Hc : 0 < c <= 1 / 4 ∧ c <= e) by (unfold c, Rmin; destruct Rle_dec; lra).
  destruct (pow_lt_1_zero (1 - 2 * c)) with (y := 1 / 100000 / (Rabs (T - d) + 1)) as [N HN].
  { rewrite Rabs_pos_eq; lra. }
  { apply Rdiv_lt_0_compat; [lra|]. pose proof (Rabs_pos (T - d)). lra. }
  exists (S N). intros els Hl Hf.
  destruct (adjusts_close T dt els d c) as [->|(d' & E1 & E2 & E3)]; try lra.
  { eapply Forall_impl; [exact Hf|]. simpl. intros. lra. }
  { done. }
  exfalso. assert (Hne : els ≠ []) by (intros ->; simpl in Hl; lia). specialize (E3 Hne).
  specialize (HN (length els) ltac:(lia)). rewrite Rabs_pos_eq in HN by (apply pow_le; lra).
  pose proof (Rabs_pos (T - d)) as P. set (x := Rabs (T - d)) in *. set (y := (1 - 2 * c) ^ length els) in *.
  assert (0 <= y) by (apply pow_le; lra).
  assert (y * (x + 1) < 1 / 100000).
  { apply (Rmult_lt_compat_r (x + 1)) in HN; [|lra]. unfold Rdiv in HN at 1.
    replace (1 / 100000 * / (x + 1) * (x + 1)) with (1 / 100000) in HN by (field; lra). exact HN. }
  nra.
Qed.

(** The presented instant *)
Lemma forward_pair sim1 sim2 now1 now2 d1 d2 dt : sim1 <= sim2 → now1 <= now2 → d2 - d1 <= now2 - now1 →
  sim1 + interpolation_dt sim1 now1 d1 dt <= sim2 + interpolation_dt sim2 now2 d2 dt.
Proof. intros H1 H2 H3. unfold interpolation_dt, Rmin. destruct Rle_dec, Rle_dec; lra. Qed.
Lemma adjust_growth T d a el dt : 0 <= el → T - d <= 1 / 5 → (adjust T d a el dt).1 - d <= el + 1 / 100000.
Proof.
  intros Hel HT. unfold adjust. destruct (a || _); [|simpl; lra].
  set (k := Rmin ((if rltb 0 (T - d) then 5 else 2) * el) 1).
  assert (Hk : 0 <= k <= 1) by (unfold k; apply rmin_unit; destruct (rltb 0 (T - d)); lra).
  assert (Hg : (T - d) * k <= el).
  { destruct (Rle_dec (T - d) 0).
    { pose proof (Rmult_le_compat_r k (T - d) 0 ltac:(lra) ltac:(done)). lra. } assert (k <= 5 * el).
    { unfold k. rewrite (proj2 (rltb_true 0 (T - d))) by lra. apply Rmin_l. }
    pose proof (Rmult_le_compat (T - d) (1 / 5) k (5 * el) ltac:(lra) ltac:(lra) ltac:(lra) ltac:(done)). lra. }
  clearbody k. destruct (rltb (Rabs (T - (d + (T - d) * k))) (1 / 100000)) eqn:E; cbn [fst]; [|lra].
  apply rltb_true in E. apply Rabs_def2 in E. lra.
Qed.
