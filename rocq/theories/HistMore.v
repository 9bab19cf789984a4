(** Proofs about the packet queue and about replaying recorded histories. *)
From Verif Require Import HistModel HistSpec HistProofs.
Local Open Scope Z_scope.

(** ** The queue *)
Lemma q_insert_perm p q : q_insert p q ≡ₚ p :: q.
Proof.
  induction q as [|x q IH]; cbn [q_insert]; [done|]. destruct (p_time p <? p_time x); [done|].
  rewrite IH. apply Permutation_swap.
Qed.
Lemma q_insert_in p q y : y ∈ q_insert p q ↔ y = p ∨ y ∈ q.
Proof. by rewrite q_insert_perm, elem_of_cons. Qed.
Lemma q_insert_sorted p q : q_sorted q → q_sorted (q_insert p q).
Proof.
  induction 1 as [|x q S IH F]; cbn [q_insert]; [repeat constructor|].
  destruct (Z.ltb_spec (p_time p) (p_time x)) as [L|L].
  - constructor; [by constructor|]. constructor; [lia|]. eapply Forall_impl; [exact F|]. cbn. lia.
  - constructor; [done|]. apply Forall_forall. intros y [->|Y]%q_insert_in; [done|]. by eapply Forall_forall in F.
Qed.
Lemma q_insert_filter p q t :
  q_sorted q →
  filter (λ x, p_time x = t) (q_insert p q) = filter (λ x, p_time x = t) q ++ filter (λ x, p_time x = t) [p].
Proof.
  induction 1 as [|x q S IH F]; cbn [q_insert]; [done|].
  destruct (Z.ltb_spec (p_time p) (p_time x)) as [L|L].
  - destruct (decide (p_time p = t)) as [E|E].
    + rewrite filter_cons_True by done. rewrite (filter_none _ (x :: q)).
      * by rewrite filter_cons_True.
      * constructor; [lia|]. eapply Forall_impl; [exact F|]. cbn. lia.
    + rewrite filter_cons_False by done. rewrite (filter_cons_False _ p []) by done. by rewrite app_nil_r.
  - rewrite !(filter_cons _ x). case_decide; [|done]. rewrite <- app_comm_cons. by f_equal.
Qed.
Lemma q_process_ok due q a b :
  q_sorted q → q_process due q = (a, b) →
  q = a ++ b ∧ a = filter (λ p, p_time p ≤ due) q ∧ b = filter (λ p, due < p_time p) q.
Proof.
  intros S. revert a b. induction S as [|x q S IH F]; intros a b; cbn [q_process].
  - by intros [= <- <-].
  - destruct (Z.ltb_spec due (p_time x)) as [L|L].
    + intros [= <- <-]. split; [done|]. rewrite filter_none, filter_all; [done| |].
      * constructor; [done|]. eapply Forall_impl; [exact F|]. cbn. lia.
      * constructor; [lia|]. eapply Forall_impl; [exact F|]. cbn. lia.
    + destruct (q_process due q) as [a1 b1] eqn:E. intros [= <- <-].
      destruct (IH _ _ eq_refl) as (-> & H1 & H2). split; [done|].
      rewrite filter_cons_True, filter_cons_False by lia. by rewrite <- H1, <- H2.
Qed.
Lemma filter_comm {A} (P Q : A → Prop) `{!∀ x, Decision (P x), !∀ x, Decision (Q x)} (l : list A) :
  filter P (filter Q l) = filter Q (filter P l).
Proof.
  induction l as [|x l IH]; [done|]. rewrite !filter_cons.
  destruct (decide (P x)), (decide (Q x)); rewrite ?filter_cons_True, ?filter_cons_False by done; by rewrite IH.
Qed.
Lemma ordered_filter (P : tpacket → Prop) `{!∀ x, Decision (P x)} l x :
  ordered_as l x → ordered_as (filter P l) (filter P x).
Proof.
  intros [S E]. split; [by apply SS_filter|]. intros t.
  rewrite filter_comm, E. by rewrite filter_comm.
Qed.
Lemma qrun_sem evs pend q q' xs :
  ordered_as pend q → qrun q evs = (q', xs) → ∃ fin, qsem pend evs xs fin ∧ ordered_as fin q'.
Proof.
  revert pend q q' xs. induction evs as [|ev evs IH]; intros pend q q' xs O; cbn [qrun].
  - intros [= <- <-]. exists pend. split; [constructor|done].
  - destruct (qstep q ev) as [q1 x] eqn:E1. destruct (qrun q1 evs) as [q2 ys] eqn:E2.
    intros [= <- <-]. destruct ev as [p|due]; cbn [qstep] in E1.
    + injection E1 as <- <-. edestruct (IH (pend ++ [p])) as (fin & Q & F); [|exact E2|].
      { destruct O as [S E]. split; [by apply q_insert_sorted|]. intros t.
        rewrite q_insert_filter by done. by rewrite filter_app, E. }
      exists fin. split; [by constructor|done].
    + destruct (q_process due q) as [a b] eqn:E. injection E1 as <- <-.
      destruct (q_process_ok _ _ _ _ (proj1 O) E) as (_ & -> & ->).
      edestruct (IH (filter (λ p, due < p_time p) pend)) as (fin & Q & F); [|exact E2|].
      { by apply ordered_filter. }
      exists fin. split; [|done]. constructor; [by apply ordered_filter|done].
Qed.
Lemma ordered_perm l x : ordered_as l x → x ≡ₚ l.
Proof.
  intros [_ E]. revert l E. induction x as [|a x IH]; intros l E.
  - destruct l as [|b l]; [done|]. specialize (E (p_time b)). by rewrite filter_cons_True in E.
  - assert (H : a ∈ l).
    { assert (a ∈ filter (λ p, p_time p = p_time a) l) as H; [|by apply elem_of_list_filter in H as [_ H]].
      rewrite <- E, filter_cons_True by done. by left. }
    specialize (E (p_time a)) as Ea. rewrite filter_cons_True in Ea by done.
    (* remove the first packet of that time from l *)
    assert (∃ l1 l2, l = l1 ++ a :: l2 ∧ Forall (λ p, p_time p ≠ p_time a) l1) as (l1 & l2 & -> & N).
    { clear E IH H. induction l as [|b l IHl]; [done|].
      destruct (decide (p_time b = p_time a)) as [Eb|Eb].
      - rewrite filter_cons_True in Ea by done. injection Ea as -> _. by exists [], l.
      - rewrite filter_cons_False in Ea by done. destruct (IHl Ea) as (l1 & l2 & -> & N).
        exists (b :: l1), l2. split; [done|]. by constructor. }
    rewrite <- Permutation_middle. f_equiv. apply IH. intros t. specialize (E t).
    rewrite filter_app. rewrite filter_app, !filter_cons in E. case_decide as D; [|done].
    subst t. rewrite (filter_none _ l1) in * by done. cbn [app] in *. congruence.
Qed.
Lemma filter_split_perm {A} (P Q : A → Prop) `{!∀ x, Decision (P x), !∀ x, Decision (Q x)} (l : list A) :
  (∀ x, Q x ↔ ¬ P x) → filter P l ++ filter Q l ≡ₚ l.
Proof.
  intros HPQ. induction l as [|x l IH]; [done|]. destruct (decide (P x)).
  - rewrite filter_cons_True, filter_cons_False by (rewrite ?HPQ; tauto). cbn. by f_equiv.
  - rewrite filter_cons_False, filter_cons_True by (rewrite ?HPQ; tauto).
    rewrite <- Permutation_middle. by f_equiv.
Qed.
Lemma qsem_perm pend evs xs fin : qsem pend evs xs fin → concat xs ++ fin ≡ₚ pend ++ arrived evs.
Proof.
  induction 1 as [pend|pend p evs xs fin Q IH|pend due x evs xs fin O Q IH]; cbn [concat arrived app].
  - by rewrite app_nil_r.
  - rewrite IH. by rewrite <- app_assoc.
  - rewrite <- app_assoc, IH, app_assoc. f_equiv. rewrite (ordered_perm _ _ O).
    apply filter_split_perm. intros. lia.
Qed.

Lemma qsem_in_time d pend evs xs fin :
  qsem pend evs xs fin → Forall (λ p, d < p_time p) pend → in_time d evs →
  q_sorted (concat xs) ∧ Forall (λ p, d < p_time p) (concat xs).
Proof.
  intros Q. revert d. induction Q as [pend|pend p evs xs fin Q IH|pend due x evs xs fin O Q IH]; intros d F T.
  - split; constructor.
  - destruct T as [T1 T2]. cbn [concat app]. apply IH; [|done]. apply Forall_app. by split; [|constructor].
  - destruct T as [T1 T2]. destruct (IH due) as [S G]; [|done|].
    { apply Forall_forall. by intros y [Y _]%elem_of_list_filter. }
    cbn [concat]. pose proof (ordered_perm _ _ O) as P.
    assert (X : ∀ y, y ∈ x → p_time y ≤ due ∧ d < p_time y).
    { intros y. rewrite P, elem_of_list_filter. intros [Y1 Y2]. by eapply Forall_forall in F. }
    split.
    + apply SS_app. split_and!; [apply O|done|]. intros a b Ha Hb. apply X in Ha.
      eapply Forall_forall in G; [|exact Hb]. cbn in G. lia.
    + apply Forall_app. split; apply Forall_forall; [by intros y Y; apply X|].
      intros y Y. eapply Forall_forall in G; [|exact Y]. cbn in G. lia.
Qed.

(** ** Replaying *)
Lemma import_each_ok start len l :
  by_time l → r_import_each start len l = filter (λ e, start ≤ e_time e ≤ start + len) l.
Proof.
  induction 1 as [|e l S IH F]; cbn [r_import_each]; [done|].
  destruct (Z.ltb_spec (start + len) (e_time e)) as [L|L].
  - rewrite filter_none; [done|]. constructor; [lia|]. eapply Forall_impl; [exact F|]. cbn. lia.
  - destruct (Z.leb_spec start (e_time e)).
    + rewrite filter_cons_True by lia. by f_equal.
    + rewrite filter_cons_False by lia. done.
Qed.
Lemma import_latest_ok t l :
  match r_import_latest t l with
  | Some e => ∃ a b, l = a ++ e :: b ∧ e_time e ≤ t ∧ Forall (λ x, t < e_time x) b
  | None => Forall (λ x, t < e_time x) l
  end.
Proof.
  unfold r_import_latest. destruct (from_first_app (λ e, e_time e <=? t) (reverse l)) as (d & E & F).
  assert (F' : Forall (λ x, t < e_time x) (reverse d)).
  { apply Forall_reverse. eapply Forall_impl; [exact F|]. cbn. intros x. rewrite Z.leb_gt. done. }
  assert (El : l = reverse (from_first (λ e, e_time e <=? t) (reverse l)) ++ reverse d).
  { rewrite <- reverse_app, <- E. by rewrite reverse_involutive. }
  destruct (from_first (λ e, e_time e <=? t) (reverse l)) as [|e k] eqn:EK; cbn [head].
  - rewrite El. by cbn.
  - exists (reverse k), (reverse d). split_and!; [|clear -EK|done].
    + rewrite El at 1. rewrite reverse_cons, <- app_assoc. done.
    + induction (reverse l) as [|x r IH]; [done|]. cbn [from_first] in EK.
      destruct (Z.leb_spec (e_time x) t); [by injection EK as -> _|]. by apply IH.
Qed.
Lemma x_steps_lookup t dt n l k :
  (k < n)%nat → x_steps t dt n l !! k = Some (r_import_each (t + Z.of_nat k * dt - dt) dt l).
Proof.
  revert t k. induction n as [|n IH]; intros t k K; [lia|]. cbn [x_steps]. destruct k as [|k].
  - cbn [lookup list_lookup]. do 2 f_equal. lia.
  - cbn [lookup list_lookup]. rewrite IH by lia. do 2 f_equal. lia.
Qed.
Lemma x_steps_length t dt n l : length (x_steps t dt n l) = n.
Proof. revert t. induction n as [|n IH]; intros; cbn; [done|]. by rewrite IH. Qed.

(** ** Windows *)
Lemma SS_sublist {A} (R : A → A → Prop) l k : l `sublist_of` k → StronglySorted R k → StronglySorted R l.
Proof.
  induction 1 as [|x l k H IH|x l k H IH]; intros S; [done| |].
  - inversion S as [|? ? S1 S2]; subst. constructor; [by apply IH|]. apply Forall_forall. intros y Y.
    eapply Forall_forall in S2; [done|]. eapply elem_of_submseteq; [done|]. by apply sublist_submseteq.
  - inversion S; subst. by apply IH.
Qed.
Lemma window_sublist {A} (l : list A) s n : take n (drop s l) `sublist_of` l.
Proof. transitivity (drop s l); [apply sublist_take|apply sublist_drop]. Qed.
Lemma windows_ok A ws m present :
  strictly_by_time A → Forall (λ x, 0 < e_time x) A → (m ≤ length A)%nat → covered A m ws →
  (foldl hspec (take m A, present) (window_op A <$> ws)).1 = take (furthest m ws) A.
Proof.
  intros B P. revert m present. induction ws as [|[[s e]|t] ws IH]; intros m present M C; [done| |].
  - destruct C as (C1 & C2 & C3 & C4). cbn [fmap list_fmap foldl window_op hspec fst snd furthest].
    rewrite fresh_window by done.
    assert (take m A ++ take (e - m) (drop m A) = take (Nat.max m e) A) as ->.
    { destruct (decide (e ≤ m)%nat).
      - replace (e - m)%nat with 0%nat by lia. rewrite Nat.max_l by lia. cbn. by rewrite app_nil_r.
      - rewrite Nat.max_r by lia. apply take_drop_between. lia. }
    apply IH; [lia|done].
  - apply IH; done.
Qed.
Lemma window_op_ok A ws m : strictly_by_time A → covered A m ws → Forall hop_ok (window_op A <$> ws).
Proof.
  intros B. revert m. induction ws as [|[[s e]|t] ws IH]; intros m C; [constructor| |].
  - destruct C as (C1 & C2 & C3 & C4). constructor; [|by eapply IH]. cbn. split.
    + intros E. apply (f_equal length) in E. rewrite take_length, drop_length in E. cbn in E. lia.
    + eapply SS_sublist; [apply window_sublist|]. unfold by_time, strictly_by_time in *.
      clear -B. induction B as [|a l S IH F]; constructor; [done|]. eapply Forall_impl; [exact F|]. cbn. lia.
  - constructor; [done|]. by eapply IH.
Qed.
Lemma shift_sorted shift l : (∀ a b, a ≤ b → shift a ≤ shift b) → by_time l → by_time (shift_entries shift l).
Proof.
  intros M. induction 1 as [|e l S IH F]; [constructor|]. cbn. constructor; [done|].
  apply Forall_forall. intros y (x & -> & X)%elem_of_list_fmap. cbn. apply M. by eapply Forall_forall in F.
Qed.
