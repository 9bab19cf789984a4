(** Proofs about modified components. *)
From Verif Require Import ModModel ModSpec.
Local Open Scope Z_scope.

Lemma swap_pop_take {A} i (l : list A) x : l !! i = Some x → take i (swap_pop i l) = take i l.
Proof.
  intros H. unfold swap_pop. destruct (last l) as [y|] eqn:L; [|done].
  apply lookup_lt_Some in H. rewrite take_take, Nat.min_l by lia. by apply take_insert.
Qed.
Lemma swap_pop_drop {A} i (l : list A) x : l !! i = Some x → drop i l ≡ₚ x :: drop i (swap_pop i l).
Proof.
  intros H. unfold swap_pop. destruct (last l) as [y|] eqn:L.
  - apply last_Some in L as [k ->]. rewrite app_length. cbn [length].
    replace (length k + 1 - 1)%nat with (length k) by lia.
    destruct (decide (i < length k)%nat) as [K|K].
    + rewrite insert_app_l by done. rewrite take_app_alt by (by rewrite insert_length).
      rewrite lookup_app_l in H by done. rewrite drop_app_le by lia.
      rewrite <- (take_drop_middle _ _ _ H) at 1.
      rewrite drop_app_alt by (rewrite take_length; lia).
      rewrite (drop_S (<[i := y]> k) y i) by (by rewrite list_lookup_insert).
      rewrite drop_insert_gt by lia. cbn [app]. f_equiv. symmetry. apply Permutation_cons_append.
    + apply lookup_lt_Some in H as H2. rewrite app_length in H2. cbn in H2.
      assert (i = length k) as -> by lia.
      rewrite lookup_app_r in H by lia. rewrite Nat.sub_diag in H. injection H as ->.
      rewrite (insert_app_r_alt k [x] (length k) x) by lia. rewrite Nat.sub_diag. cbn.
      rewrite take_app, drop_app, drop_all. done.
  - apply last_None in L. by subst.
Qed.
Lemma swap_pop_length {A} i (l : list A) x : l !! i = Some x → length (swap_pop i l) = (length l - 1)%nat.
Proof.
  intros H. unfold swap_pop. destruct (last l) as [y|] eqn:L.
  - rewrite take_length, insert_length. lia.
  - apply last_None in L. by subst.
Qed.

Definition sub_ms (ms : Z) (x : mentry) : mentry := MEntry (m_idx x) (m_rem x - ms).
Definition decayed (ms : Z) (l : list mentry) : list mentry := sub_ms ms <$> filter (λ x, ms ≤ m_rem x) l.

Lemma filter_perm {A} (P : A → Prop) `{!∀ x, Decision (P x)} (l k : list A) : l ≡ₚ k → filter P l ≡ₚ filter P k.
Proof. intros E. by rewrite E. Qed.

Lemma decay_loop_ok fuel ms i l :
  (length l < fuel + i)%nat → (i ≤ length l)%nat →
  ∃ l', mc_decay_loop fuel ms i l = Ok l' ∧ l' ≡ₚ take i l ++ decayed ms (drop i l).
Proof.
  revert i l. induction fuel as [|fuel IH]; intros i l F I; [lia|]. cbn [mc_decay_loop].
  destruct (l !! i) as [x|] eqn:E.
  - apply lookup_lt_Some in E as L. destruct (Z.ltb_spec (m_rem x) ms) as [R|R].
    + destruct (IH i (swap_pop i l)) as (l' & E' & P).
      { rewrite (swap_pop_length _ _ x) by done. lia. }
      { rewrite (swap_pop_length _ _ x) by done. lia. }
      exists l'. split; [done|]. rewrite P, (swap_pop_take _ _ x) by done. f_equiv. unfold decayed. f_equiv.
      rewrite (filter_perm _ _ _ (swap_pop_drop _ _ _ E)). rewrite filter_cons_False by lia. done.
    + destruct (IH (S i) (<[i := MEntry (m_idx x) (m_rem x - ms)]> l)) as (l' & E' & P).
      { rewrite insert_length. lia. }
      { rewrite insert_length. lia. }
      exists l'. split; [done|]. rewrite P.
      rewrite (take_S_r _ _ (sub_ms ms x)) by (by rewrite list_lookup_insert).
      rewrite take_insert, drop_insert_gt by lia. rewrite <- app_assoc. f_equiv.
      rewrite (drop_S l x i) by done. unfold decayed. by rewrite filter_cons_True by lia.
  - apply lookup_ge_None in E. exists l. split; [done|]. rewrite take_ge, drop_ge by lia.
    by rewrite app_nil_r.
Qed.
Lemma decay_ok ms l : ∃ l', mc_decay ms l = Ok l' ∧ l' ≡ₚ decayed ms l.
Proof. destruct (decay_loop_ok (S (length l)) ms 0 l) as (l' & E & P); [lia|lia|]. by exists l'. Qed.

(** The list represents [f]: time counted per component. *)
Definition rep (f : nat → option Z) (l : list mentry) : Prop :=
  NoDup (m_idx <$> l) ∧ ∀ i r, MEntry i r ∈ l ↔ ∃ s, f i = Some s ∧ s ≤ 400 ∧ r = 400 - s.

Lemma rep_perm f l k : l ≡ₚ k → rep f l → rep f k.
Proof. intros P [N E]. split; [by rewrite <- P|]. intros i r. by rewrite <- P. Qed.

Lemma rep_decay f l ms : 0 ≤ ms → rep f l → rep (λ i, (λ s, s + ms) <$> f i) (decayed ms l).
Proof.
  intros M [N E]. split.
  - unfold decayed. rewrite <- list_fmap_compose.
    assert (m_idx ∘ sub_ms ms = m_idx) as -> by done.
    clear E. induction l as [|x l IH]; [constructor|]. cbn in N. apply NoDup_cons in N as [N1 N2].
    rewrite filter_cons. case_decide; [|by apply IH]. cbn. constructor; [|by apply IH].
    intros (y & Y1 & [_ Y2]%elem_of_list_filter)%elem_of_list_fmap. apply N1. rewrite Y1. apply elem_of_list_fmap. by exists y.
  - intros i r. unfold decayed. rewrite elem_of_list_fmap. split.
    + intros ([i' r'] & [= -> ->] & [Y1 Y2]%elem_of_list_filter). cbn in *.
      apply E in Y2 as (s & Y2 & Y3 & ->). exists (s + ms). rewrite Y2. split; [done|]. lia.
    + intros (s & Y1 & Y2 & ->). destruct (f i) as [s0|] eqn:Fi; [|done]. injection Y1 as <-.
      exists (MEntry i (400 - s0)). split; [unfold sub_ms; cbn; f_equal; lia|].
      apply elem_of_list_filter. cbn. split; [lia|]. apply E. exists s0. split_and!; [done|lia|done].
Qed.

Lemma rep_bump f l i n l' : rep f l → mc_bump n i l = Ok l' →
  rep (λ j, if decide (i = j) then Some 0 else f j) l'.
Proof.
  intros [N E] B. unfold mc_bump in B. destruct (bool_decide (length l < n)%nat); [|done]. cbn in B.
  destruct (existsb (λ x, bool_decide (m_idx x = i)) l) eqn:X; injection B as <-.
  - apply existsb_exists in X as (x & X1 & X2). apply elem_of_list_In in X1. apply bool_decide_eq_true in X2.
    split.
    + rewrite <- list_fmap_compose. assert (EQ : m_idx ∘ (λ x, if bool_decide (m_idx x = i) then MEntry (m_idx x) duration else x) <$> l = m_idx <$> l).
      { apply list_fmap_ext. intros k y _. cbn. by case_bool_decide. }
      by rewrite EQ.
    + intros j r. rewrite elem_of_list_fmap. split.
      * intros ([j' r'] & Y1 & Y2). cbn in Y1. case_bool_decide as D.
        { injection Y1 as -> ->. subst j'. rewrite decide_True by done. exists 0. unfold duration. split_and!; [done|lia|done]. }
        { injection Y1 as -> ->. rewrite decide_False by done. by apply E. }
      * intros (s & Y1 & Y2 & ->). case_decide as D.
        { injection Y1 as <-. subst j. exists x. split; [|done]. rewrite bool_decide_true by done. by rewrite X2. }
        { exists (MEntry j (400 - s)). cbn. rewrite bool_decide_false by done. split; [done|]. apply E. by exists s. }
  - assert (NI : i ∉ m_idx <$> l).
    { intros (x & -> & Y)%elem_of_list_fmap. enough (existsb (λ y, bool_decide (m_idx y = m_idx x)) l = true) by congruence.
      apply existsb_exists. exists x. split; [by apply elem_of_list_In|]. by apply bool_decide_eq_true. }
    split.
    + rewrite fmap_app. apply NoDup_app. split_and!; [done| |apply NoDup_singleton].
      intros y Y ->%elem_of_list_singleton. done.
    + intros j r. rewrite elem_of_app, elem_of_list_singleton. split.
      * intros [Y|[= -> ->]].
        { rewrite decide_False; [by apply E|]. intros ->. apply NI. apply elem_of_list_fmap. by exists (MEntry j r). }
        { rewrite decide_True by done. exists 0. split_and!; [done|lia|done]. }
      * intros (s & Y1 & Y2 & ->). case_decide as D; [|left; apply E; by exists s].
        right. injection Y1 as <-. by subst j.
Qed.

Lemma since_ext i a b os : a = b → since i a os = since i b os.
Proof. by intros ->. Qed.
Lemma rep_ext f g l : (∀ i, f i = g i) → rep f l → rep g l.
Proof. intros H [N E]. split; [done|]. intros i r. rewrite E. by setoid_rewrite H. Qed.

Lemma mrun_ok n os f l l' :
  Forall mop_ok os → rep f l → mrun n l os = Ok l' → rep (λ i, since i (f i) os) l'.
Proof.
  revert f l. induction os as [|o os IH]; intros f l F R; cbn [mrun].
  - intros [= <-]. done.
  - inversion F as [|? ? O F']; subst. intros E. apply bind_ok in E as (l1 & E1 & E2).
    destruct o as [i|ms]; cbn [mstep] in E1.
    + apply (IH _ _ F' (rep_bump _ _ _ _ _ R E1)) in E2. eapply rep_ext; [|exact E2]. done.
    + destruct (decay_ok ms l) as (l2 & E3 & P). assert (l2 = l1) as -> by congruence.
      cbn in O. eapply IH in E2; [|done|eapply rep_perm; [symmetry; exact P|by apply rep_decay]].
      eapply rep_ext; [|exact E2]. done.
Qed.
Lemma rep_nil : rep (λ _, None) [].
Proof. split; [constructor|]. intros i r. split; [by intros ?%elem_of_nil|]. by intros (s & ? & _). Qed.

(** Without failure as long as some component is never modified. *)
Lemma rep_length f l n j :
  rep f l → (j < n)%nat → f j = None → (∀ i s, f i = Some s → (i < n)%nat) → (length l < n)%nat.
Proof.
  intros [N E] J FJ B.
  assert (S : m_idx <$> l ⊆ filter (λ i, i ≠ j) (seq 0 n)).
  { intros i ([i' r] & -> & X)%elem_of_list_fmap. cbn. apply E in X as (s & X & _).
    apply elem_of_list_filter. split; [intros ->; congruence|]. apply elem_of_seq. specialize (B _ _ X). lia. }
  apply (NoDup_submseteq _ _ N) in S. apply submseteq_length in S. rewrite fmap_length in S.
  assert (SS : j :: filter (λ i, i ≠ j) (seq 0 n) ⊆+ seq 0 n).
  { apply NoDup_submseteq.
    - constructor; [by intros [X _]%elem_of_list_filter|]. apply NoDup_filter, NoDup_seq.
    - intros x [->|[_ X]%elem_of_list_filter]%elem_of_cons; [|done]. apply elem_of_seq. lia. }
  apply submseteq_length in SS. rewrite seq_length in SS. cbn in SS. lia.
Qed.
Lemma bump_fine n i l : (length l < n)%nat → ∃ l', mc_bump n i l = Ok l'.
Proof.
  intros L. unfold mc_bump. rewrite bool_decide_true by done. cbn.
  destruct (existsb _ l); eauto.
Qed.
Lemma mrun_fine n j os f l :
  Forall mop_ok os → rep f l → (j < n)%nat → f j = None → (∀ i s, f i = Some s → (i < n)%nat) →
  (∀ i, Bump i ∈ os → (i < n)%nat ∧ i ≠ j) → ∃ l', mrun n l os = Ok l'.
Proof.
  revert f l. induction os as [|o os IH]; intros f l F R J FJ B H; cbn [mrun]; [by exists l|].
  inversion F as [|? ? O F']; subst. destruct o as [i|ms]; cbn [mstep].
  - destruct (H i) as [H1 H2]; [by left|].
    destruct (bump_fine n i l) as (l1 & E1); [exact (rep_length f l n j R J FJ B)|]. rewrite E1. cbn [mbind res_bind].
    apply (IH _ _ F' (rep_bump _ _ _ _ _ R E1)); [done| | |].
    + by rewrite decide_False.
    + intros k s. case_decide; [by subst|apply B].
    + intros k K. apply H. by right.
  - destruct (decay_ok ms l) as (l2 & E3 & P). rewrite E3. cbn [mbind res_bind]. cbn in O.
    apply (IH (λ i, (λ s, s + ms) <$> f i)); [done|eapply rep_perm; [symmetry; exact P|by apply rep_decay]|done| | |].
    + cbn beta. by rewrite FJ.
    + intros k s. cbn beta. destruct (f k) as [z|] eqn:K; [|done]. intros _. by eapply B.
    + intros k K. apply H. by right.
Qed.

(** ** Real time *)
Fixpoint mops (t : Z) (os : list xop) : list mop :=
  match os with
  | [] => []
  | Modify i :: os' => Bump i :: mops t os'
  | Update u :: os' => Decay ((u - t) / 1000) :: mops u os'
  end.
Lemma xrun_mrun n os s s' : xrun n s os = Ok s' →
  mrun n (x_mod s) (mops (x_last s) os) = Ok (x_mod s') ∧ times_ok (x_last s) os ∧ x_last s' = last_update (x_last s) os.
Proof.
  revert s. induction os as [|o os IH]; intros s; cbn [xrun]; [by intros [= <-]|].
  intros E. apply bind_ok in E as (s1 & E1 & E2). destruct (IH _ E2) as (H1 & H2 & H3).
  destruct o as [i|u]; cbn [xstep mops mrun mstep] in *.
  - apply bind_ok in E1 as (l & El & [= <-]). rewrite El. cbn [mbind res_bind x_last x_mod] in *. done.
  - destruct (Z.leb_spec (x_last s) u); [|done]. cbn [assert_ mbind res_bind] in E1.
    apply bind_ok in E1 as (l & El & [= <-]). rewrite El. cbn [mbind res_bind x_last x_mod] in *.
    split_and!; try done.
Qed.
Lemma mops_ok t os : times_ok t os → Forall mop_ok (mops t os).
Proof.
  revert t. induction os as [|[i|u] os IH]; intros t T; cbn [mops]; [constructor| |].
  - constructor; [done|]. by apply IH.
  - destruct T. constructor; [|by apply IH]. cbn. apply Z.div_pos; lia.
Qed.
Lemma since_app i acc a b : since i acc (a ++ b) = since i (since i acc a) b.
Proof. revert acc. induction a as [|[j|ms] a IH]; intros acc; cbn; [done|by rewrite IH..]. Qed.
Lemma mops_app t a b : mops t (a ++ b) = mops t a ++ mops (last_update t a) b.
Proof. revert t. induction a as [|[j|u] a IH]; intros t; cbn; [done|by rewrite IH..]. Qed.
Lemma times_app t a b : times_ok t (a ++ b) ↔ times_ok t a ∧ times_ok (last_update t a) b.
Proof. revert t. induction a as [|[j|u] a IH]; intros t; cbn; [tauto|apply IH|]. rewrite IH. tauto. Qed.
(** Counted time is at most the real time, and falls short by less than 1 ms per update. *)
Lemma since_bound i os t s :
  times_ok t os → Modify i ∉ os → 0 ≤ s →
  ∃ s', since i (Some s) (mops t os) = Some s' ∧
    1000 * s' ≤ 1000 * s + (last_update t os - t) ∧
    1000 * s + (last_update t os - t) - 1000 * Z.of_nat (num_updates os) ≤ 1000 * s'.
Proof.
  revert t s. induction os as [|[j|u] os IH]; intros t s T N S; cbn [mops since last_update num_updates].
  - exists s. split; [done|]. lia.
  - cbn in T. rewrite decide_False by (intros ->; apply N; by left).
    apply IH; [done| |done]. intros X. apply N. by right.
  - destruct T as [T1 T2]. cbn [fmap option_fmap option_map].
    assert (0 ≤ (u - t) / 1000) by (apply Z.div_pos; lia).
    pose proof (Z.mul_div_le (u - t) 1000 ltac:(lia)). pose proof (Z.mul_succ_div_gt (u - t) 1000 ltac:(lia)).
    destruct (IH u (s + (u - t) / 1000)) as (s' & E & B1 & B2); [done| |lia|].
    { intros X. apply N. by right. }
    exists s'. split; [done|]. lia.
Qed.

Lemma rep_pending f l i : rep f l → (i ∈ m_idx <$> l ↔ ∃ s, f i = Some s ∧ s ≤ 400).
Proof.
  intros [_ E]. rewrite elem_of_list_fmap. split.
  - intros ([i' r] & -> & X). apply E in X as (s & X1 & X2 & _). by exists s.
  - intros (s & X1 & X2). exists (MEntry i (400 - s)). split; [done|]. apply E. by exists s.
Qed.
Lemma mrun_pending n os l : Forall mop_ok os → mrun n [] os = Ok l →
  NoDup (m_idx <$> l) ∧ ∀ i, i ∈ m_idx <$> l ↔ pending os i.
Proof.
  intros F E. pose proof (mrun_ok _ _ _ _ _ F rep_nil E) as R. split; [apply R|].
  intros i. apply (rep_pending _ _ _ R).
Qed.
Lemma mrun_app n a b l : mrun n l (a ++ b) = mrun n l a ≫= λ l', mrun n l' b.
Proof.
  revert l. induction a as [|o a IH]; intros l; cbn [mrun app]; [done|].
  destruct (mstep n l o); cbn; [apply IH|done..].
Qed.
Lemma mrun_full n os l i : Forall mop_ok os → mrun n [] os = Ok l → (∀ j, (j < n)%nat → pending os j) →
  mrun n [] (os ++ [Bump i]) = AssertFail.
Proof.
  intros F E P. rewrite mrun_app, E. cbn. unfold mc_bump.
  apply (mrun_pending n os l F) in E as [N E].
  assert (L : seq 0 n ⊆+ m_idx <$> l).
  { apply NoDup_submseteq; [apply NoDup_seq|]. intros j J%elem_of_seq. apply E, P. lia. }
  apply submseteq_length in L. rewrite seq_length, fmap_length in L.
  rewrite bool_decide_false by lia. done.
Qed.

Lemma xrun_pending n pre i post s :
  xrun n exporter_init (pre ++ Modify i :: post) = Ok s → Modify i ∉ post →
  let elapsed := x_last s - last_update 0 pre in
  (elapsed < 401000 → i ∈ m_idx <$> x_mod s) ∧
  (401000 + 1000 * Z.of_nat (num_updates post) ≤ elapsed → i ∉ m_idx <$> x_mod s).
Proof.
  intros E N elapsed. apply xrun_mrun in E as (E & T & LU). cbn [x_mod x_last exporter_init] in *.
  apply mops_ok in T as F. destruct (mrun_pending _ _ _ F E) as [_ P]. rewrite !P.
  rewrite mops_app in *. cbn [mops] in *. apply times_app in T as [T1 T2]. cbn [times_ok] in T2.
  destruct (since_bound i post (last_update 0 pre) 0) as (s' & S1 & S2 & S3); [done|done|lia|].
  assert (SS : since i None (mops 0 pre ++ Bump i :: mops (last_update 0 pre) post) = Some s').
  { rewrite since_app. cbn [since]. by rewrite decide_True. }
  assert (LE : x_last s = last_update (last_update 0 pre) post).
  { rewrite LU. clear. generalize 0. induction pre as [|[j|u] pre IH]; intros z; cbn; [done|apply IH|apply IH]. }
  unfold elapsed. rewrite LE. unfold pending. rewrite SS. split.
  - intros X. exists s'. split; [done|]. lia.
  - intros X (s2 & [= <-] & Y). lia.
Qed.

Fixpoint every (d t : Z) (k : nat) : list xop :=
  match k with O => [] | S k => Update (t + d) :: every d (t + d) k end.
Lemma every_never n k t i r : 0 ≤ r →
  ∃ r', xrun n (Exporter t [MEntry i r]) (every 999 t k) = Ok (Exporter r' [MEntry i r]) ∧ r' = t + 999 * Z.of_nat k.
Proof.
  intros R. revert t. induction k as [|k IH]; intros t; cbn [every xrun].
  - exists t. split; [done|]. lia.
  - cbn [xstep x_last x_mod]. rewrite (proj2 (Z.leb_le t (t + 999))) by lia. cbn [assert_ mbind res_bind].
    replace ((t + 999 - t) / 1000) with 0 by (replace (t + 999 - t) with 999 by lia; done).
    unfold mc_decay. cbn [length mc_decay_loop lookup list_lookup m_rem m_idx].
    rewrite (proj2 (Z.ltb_ge r 0)) by lia. cbn [insert list_insert lookup list_lookup].
    cbn [mc_decay_loop lookup list_lookup m_rem m_idx mbind res_bind].
    rewrite Z.sub_0_r. destruct (IH (t + 999)) as (r' & E & ->). eexists. split; [exact E|]. lia.
Qed.
