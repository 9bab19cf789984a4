(** The graph walks: connected_components, is_single_connected_component,
    traverse and reach. *)
From Verif Require Import Outcome Chain FreeListModel FreeListProofs GraphModel GraphSpec
  GraphProofs GraphProofs2 GraphProofs3 GraphProofs4 GraphHist.

Lemma connecting_dec_live m i : live_node m i → connecting m i ∨ non_connecting m i.
Proof. intros [[x []] Hi]; [right|left]; by exists x. Qed.
Lemma connecting_not_nc m i : connecting m i → ¬ non_connecting m i.
Proof. intros [x Hx] [y Hy]. congruence. Qed.
Lemma adjacent_sym m i j : adjacent m i j ↔ adjacent m j i.
Proof. unfold adjacent. setoid_rewrite (joins_sym m _ i j). done. Qed.

Section walk.
Context (g : graph) (m : mgraph) (N : nat → list (nat * nat)) (E : nat → nat → list nat) (LA : gset nat).
Context (R : grep None g m N E LA).

Lemma walk_edges_spec c : ∀ h fuel w,
  chain (fl_nx (g_edges g)) h c → NoDup c → (∀ k, k ∈ c → is_Some (mg_edges m !! k)) →
  length c ≤ fuel →
  ∃ Q, walk_edges g fuel h w =
    Ok (Walk (w_visited w) (list_to_set Q ∪ w_vedges w) (w_stack w) (w_nodes w) (Q ++ w_edges w) (w_nc w)) ∧
    NoDup Q ∧ (∀ k, k ∈ Q ↔ k ∈ c ∧ k ∉ w_vedges w).
Proof.
  induction c as [|k c IH]; intros h fuel w Hc Hnd Hl Hf.
  { simpl in Hc. subst h. exists []. split; [|split; [constructor|set_solver]].
    destruct w; destruct fuel; simpl; do 2 f_equal; set_solver. }
  destruct Hc as (-> & n & Hn & Hc). apply NoDup_cons in Hnd as [Hk Hnd].
  destruct fuel as [|fuel]; [simpl in Hf; lia|]. simpl.
  unfold fl_nx in Hn. apply fmap_Some in Hn as ([ed n'] & He & ->).
  destruct (Hl k) as [[[x i] j] Hkm]; [set_solver|].
  destruct (r_edge _ _ _ _ _ _ R _ _ _ _ Hkm) as (a0 & a1 & nx & He' & _ & _).
  rewrite He in He'. simplify_eq. rewrite (fl_get_elem _ _ _ He). simpl.
  case_decide as Hv.
  - destruct (IH nx fuel w) as (Q & -> & HQ & HQin); [done|done|set_solver|simpl in Hf; lia|].
    exists Q. split; [done|]. split; [done|]. intros k'. rewrite HQin. set_solver.
  - destruct (IH nx fuel (Walk (w_visited w) ({[k]} ∪ w_vedges w) (w_stack w) (w_nodes w) (k :: w_edges w) (w_nc w)))
      as (Q & -> & HQ & HQin); [done|done|set_solver|simpl in Hf; lia|].
    simpl in *. exists (Q ++ [k]). split.
    { do 2 f_equal; [set_solver|]. by rewrite <- app_assoc. }
    split.
    + apply NoDup_app. split_and!; [done| |apply NoDup_singleton].
      intros k' Hk'. apply HQin in Hk'. set_solver.
    + intros k'. rewrite elem_of_app, HQin. set_solver.
Qed.
Global Arguments walk_edges : simpl never.

Definition stack_add (fifo : bool) (st Q : list nat) : list nat :=
  if fifo then st ++ reverse Q else Q ++ st.

Lemma walk_adjs_spec p i L : ∀ h fuel w,
  chain (fl_nx (g_adjs g)) h L.*1 → (∀ q, q ∈ L → q ∈ N i) → length L ≤ fuel →
  ∃ Q K, walk_adjs p g fuel h w =
    Ok (Walk (list_to_set Q ∪ w_visited w) (list_to_set K ∪ w_vedges w)
         (stack_add (wp_fifo p) (w_stack w) Q) (w_nodes w) (K ++ w_edges w) (w_nc w)) ∧
    NoDup Q ∧ (∀ j, j ∈ Q ↔ j ∈ L.*2 ∧ wp_should p j = true ∧ j ∉ w_visited w) ∧
    NoDup K ∧ (∀ k, k ∈ K ↔ wp_edges p = true ∧ k ∉ w_vedges w ∧ ∃ j, j ∈ L.*2 ∧ k ∈ E i j).
Proof.
  induction L as [|[a j] L IH]; intros h fuel w Hc HL Hf.
  { simpl in Hc. subst h. exists [], []. split.
    - destruct w; destruct fuel; unfold stack_add; simpl; rewrite ?app_nil_r;
        destruct (wp_fifo p); do 2 f_equal; set_solver.
    - split_and!; [constructor|set_solver|constructor|]. intros k. split; [set_solver|].
      intros (_ & _ & j & Hj & _). by apply elem_of_nil in Hj. }
  simpl in Hc. destruct Hc as (-> & n & Hn & Hc).
  destruct fuel as [|fuel]; [simpl in Hf; lia|]. simpl.
  destruct (r_adj _ _ _ _ _ _ R i a j) as (anx & Hae & HEne & [[y ncy] Hj]); [apply HL; set_solver|].
  unfold fl_nx in Hn. rewrite Hae in Hn. simpl in Hn. simplify_eq.
  rewrite (fl_get_elem _ _ _ Hae). simpl.
  assert (∃ K1, (if wp_edges p then walk_edges g (fl_range (g_edges g)) (head (E i j)) w else Ok w) =
    Ok (Walk (w_visited w) (list_to_set K1 ∪ w_vedges w) (w_stack w) (w_nodes w) (K1 ++ w_edges w) (w_nc w)) ∧
    NoDup K1 ∧ (∀ k, k ∈ K1 ↔ wp_edges p = true ∧ k ∈ E i j ∧ k ∉ w_vedges w)) as (K1 & -> & HK1 & HK1in).
  { destruct (wp_edges p).
    - destruct (walk_edges_spec (E i j) (head (E i j)) (fl_range (g_edges g)) w) as (Q & -> & HQ & HQin).
      + apply (r_echain _ _ _ _ _ _ R).
      + apply (r_End _ _ _ _ _ _ R).
      + intros k Hk. apply (r_E _ _ _ _ _ _ R) in Hk as (z & [Hz|Hz]); eauto.
      + exact (r_Elen _ _ _ _ _ _ i j R).
      + exists Q. split; [done|]. split; [done|]. intros k. rewrite HQin. naive_solver.
    - exists []. split; [|split; [constructor|]].
      + destruct w; simpl. do 2 f_equal. set_solver.
      + intros k. split; [intros Hk; by apply elem_of_nil in Hk|]. naive_solver. }
  simpl.
  destruct (grep_node_plain _ _ _ _ _ _ _ _ R Hj) as (hj & nxj & Hej & _).
  rewrite bool_decide_true by (by eapply lookup_lt_Some). simpl.
  set (w1 := if decide (j ∉ w_visited w ∧ wp_should p j = true) then _ else _).
  destruct (IH n fuel w1) as (Q & K & -> & HQ & HQin & HK & HKin); [done|set_solver|simpl in Hf; lia|].
  assert (HLj : ∀ t, t ∈ j :: L.*2 ↔ t = j ∨ t ∈ L.*2) by (intros t; apply elem_of_cons).
  unfold w1 in *. clear w1. destruct (decide _) as [[Hv Hs]|Hns]; simpl in *.
  - exists (Q ++ [j]), (K ++ K1). split.
    { f_equal. f_equal.
      - clear. set_solver.
      - clear. set_solver.
      - unfold stack_add. destruct (wp_fifo p); [|by rewrite <- app_assoc].
        rewrite reverse_app. simpl. by rewrite <- app_assoc.
      - by rewrite app_assoc. }
    split_and!.
    + apply NoDup_app. split_and!; [done| |apply NoDup_singleton].
      intros t Ht. apply HQin in Ht. clear - Ht. set_solver.
    + intros t. rewrite elem_of_app, elem_of_list_singleton, HQin, HLj.
      destruct (decide (t = j)) as [->|Htj]; [clear - Hv Hs|clear - Htj]; set_solver.
    + apply NoDup_app. split_and!; [done| |done].
      intros k Hk Hk1. apply HKin in Hk as (_ & Hk & _). apply Hk.
      apply elem_of_union. left. by apply elem_of_list_to_set.
    + intros k. rewrite elem_of_app, HKin, HK1in. setoid_rewrite HLj.
      rewrite elem_of_union, elem_of_list_to_set, HK1in. destruct (decide (k ∈ E i j)); naive_solver.
  - exists Q, (K ++ K1). split.
    { f_equal. f_equal.
      - clear. set_solver.
      - by rewrite app_assoc. }
    split_and!.
    + done.
    + intros t. rewrite HQin, HLj. naive_solver.
    + apply NoDup_app. split_and!; [done| |done].
      intros k Hk Hk1. apply HKin in Hk as (_ & Hk & _). apply Hk.
      apply elem_of_union. left. by apply elem_of_list_to_set.
    + intros k. rewrite elem_of_app, HKin, HK1in. setoid_rewrite HLj.
      rewrite elem_of_union, elem_of_list_to_set, HK1in. destruct (decide (k ∈ E i j)); naive_solver.
Qed.
Global Arguments walk_adjs : simpl never.

(** Invariant of the worklist loop started at [s] with visited nodes [V0] and
    visited edges [K0]. *)
Record winv (p : walk_params) (V0 K0 : gset nat) (s : nat) (w : walk) : Prop := {
  wi_vis : w_visited w = V0 ∪ list_to_set (w_nodes w ++ w_stack w);
  wi_nd : NoDup (w_nodes w ++ w_stack w);
  wi_disj : ∀ i, i ∈ w_nodes w ++ w_stack w → i ∉ V0;
  wi_s : s ∈ w_nodes w ++ w_stack w;
  wi_reach : ∀ i, i ∈ w_nodes w ++ w_stack w →
    rpath m (λ j, wp_should p j = true ∧ j ∉ V0) s i ∧ live_node m i;
  wi_closed : ∀ n j, n ∈ w_nodes w → connecting m n → adjacent m n j → wp_should p j = true →
    j ∈ w_visited w;
  wi_vedges : w_vedges w = K0 ∪ list_to_set (w_edges w);
  wi_end : NoDup (w_edges w);
  wi_edges : ∀ k, k ∈ w_edges w ↔
    wp_edges p = true ∧ k ∉ K0 ∧ ∃ n, n ∈ w_nodes w ∧ connecting m n ∧ incident m k n;
  wi_nc : ∀ i, i ∈ w_nc w ↔ i ∈ w_nodes w ∧ non_connecting m i
}.

Lemma stack_add_perm f st Q : stack_add f st Q ≡ₚ Q ++ st.
Proof. unfold stack_add. destruct f; [|done]. rewrite reverse_Permutation. apply Permutation_app_comm. Qed.

Lemma live_bound i : live_node m i → i < fl_range (g_nodes g).
Proof.
  intros [[x nc] Hi]. destruct (grep_node_plain _ _ _ _ _ _ _ _ R Hi) as (h & nx & He & _).
  by eapply lookup_lt_Some.
Qed.

Lemma winv_bound p V0 K0 s w : winv p V0 K0 s w → length (w_nodes w ++ w_stack w) ≤ fl_range (g_nodes g).
Proof.
  intros W. apply NoDup_bounded_length; [apply W|]. intros i Hi. apply live_bound.
  by apply (wi_reach _ _ _ _ _ W).
Qed.

Lemma walk_loop_spec p V0 K0 s fuel : ∀ w,
  winv p V0 K0 s w → fl_range (g_nodes g) ≤ fuel + length (w_nodes w) →
  ∃ w', walk_loop p g fuel w = Ok w' ∧ winv p V0 K0 s w' ∧ w_stack w' = [].
Proof.
  induction fuel as [|fuel IH]; intros w W Hf; destruct (w_stack w) as [|i st] eqn:Hst.
  - exists w. simpl. by rewrite Hst.
  - exfalso. pose proof (winv_bound _ _ _ _ _ W) as Hb. rewrite app_length, Hst in Hb. simpl in *. lia.
  - exists w. simpl. by rewrite Hst.
  - simpl. rewrite Hst.
    assert (Hin : i ∈ w_nodes w ++ w_stack w) by (rewrite Hst; set_solver).
    destruct (wi_reach _ _ _ _ _ W i Hin) as [Hreach [[x nc] Hi]].
    destruct (grep_node_plain _ _ _ _ _ _ _ _ R Hi) as (h & nx & He & Hc).
    rewrite bool_decide_true by (by eapply lookup_lt_Some). simpl.
    rewrite (fl_get_elem _ _ _ He). simpl.
    rewrite orb_true_r. simpl.
    destruct w as [wv we ws wn wed wnc]; simpl in *. subst ws.
    pose proof (wi_vis _ _ _ _ _ W) as Wvis. pose proof (wi_nd _ _ _ _ _ W) as Wnd.
    pose proof (wi_vedges _ _ _ _ _ W) as Wve. pose proof (wi_nc _ _ _ _ _ W) as Wnc. simpl in *.
    assert (Hiv : {[i]} ∪ wv = wv).
    { rewrite Wvis. apply set_eq. intros y. rewrite list_to_set_app_L. clear. set_solver. }
    assert (Hperm : ∀ st', (i :: wn) ++ st' ≡ₚ wn ++ i :: st').
    { intros st'. simpl. apply Permutation_middle. }
    destruct nc.
    + (* non-connecting *)
      apply IH; [|simpl; lia].
      assert (Hncon : ¬ connecting m i).
      { intros [y Hy]. congruence. }
      destruct W. split; simpl in *.
      * rewrite Hiv, Wvis. apply set_eq. intros y. clear. set_solver.
      * by rewrite Permutation_middle.
      * intros y Hy. apply wi_disj0. by rewrite <- Permutation_middle.
      * by rewrite Permutation_middle.
      * intros y Hy. apply wi_reach0. by rewrite <- Permutation_middle.
      * intros n j Hn Hcn. apply elem_of_cons in Hn as [->|Hn]; [done|].
        rewrite Hiv. eauto.
      * done.
      * done.
      * intros k. rewrite wi_edges0. setoid_rewrite elem_of_cons. naive_solver.
      * intros y. rewrite !elem_of_cons, Wnc. split; [|tauto]. intros [->|?]; [|tauto].
        split; [auto|]. by exists x.
    + (* connecting *)
      assert (Hcon : connecting m i) by (by exists x).
      destruct (walk_adjs_spec p i (N i) h (fl_range (g_adjs g))
        (Walk ({[i]} ∪ wv) we st (i :: wn) wed wnc)) as (Q & K & -> & HQ & HQin & HK & HKin); simpl in *.
      { done. } { done. } { exact (r_Nlen _ _ _ _ _ _ _ R). }
      rewrite Hiv in *. apply IH; [|simpl; lia].
      assert (Hadj : ∀ j, j ∈ (N i).*2 ↔ adjacent m i j) by (intros j; exact (r_N_iff _ _ _ _ _ _ _ R)).
      assert (Hinc : ∀ k, (∃ j, j ∈ (N i).*2 ∧ k ∈ E i j) ↔ incident m k i).
      { intros k. unfold incident. split.
        - intros (j & _ & Hk). exists j. by apply (r_E _ _ _ _ _ _ R).
        - intros (j & Hj). exists j. split; [apply Hadj; by exists k|by apply (r_E _ _ _ _ _ _ R)]. }
      assert (HpermQ : i :: wn ++ stack_add (wp_fifo p) st Q ≡ₚ Q ++ (wn ++ i :: st)).
      { rewrite stack_add_perm.
        transitivity (i :: (wn ++ Q) ++ st); [by rewrite <- app_assoc|].
        rewrite (Permutation_app_comm wn Q), <- app_assoc.
        transitivity (Q ++ i :: wn ++ st); [apply Permutation_middle|].
        apply Permutation_app_head, Permutation_middle. }
      assert (HinQ : ∀ y, y ∈ i :: wn ++ stack_add (wp_fifo p) st Q ↔ y ∈ Q ∨ y ∈ wn ++ i :: st).
      { intros y. rewrite HpermQ. by rewrite elem_of_app. }
      destruct W. simpl in *. split; simpl in *.
      * rewrite Wvis. apply set_eq. intros y.
        transitivity (y ∈ V0 ∨ y ∈ i :: wn ++ stack_add (wp_fifo p) st Q).
        -- rewrite HinQ, !elem_of_union, !elem_of_list_to_set. tauto.
        -- rewrite !elem_of_union, elem_of_cons, elem_of_singleton, elem_of_list_to_set. tauto.
      * rewrite HpermQ. apply NoDup_app. split_and!; [done| |done].
        intros y Hy Hy'. apply HQin in Hy as (_ & _ & Hy). apply Hy.
        rewrite Wvis. apply elem_of_union. right. by apply elem_of_list_to_set.
      * intros y Hy. apply HinQ in Hy as [Hy|Hy]; [|auto].
        apply HQin in Hy as (_ & _ & Hy). intros HV. apply Hy. rewrite Wvis. by apply elem_of_union_l.
      * apply HinQ. by right.
      * intros y Hy. apply HinQ in Hy as [Hy|Hy]; [|auto].
        apply HQin in Hy as (HyN & Hys & Hyv). split.
        -- eapply rp_step; [exact Hreach|done|by apply Hadj|]. split; [done|].
           intros HV. apply Hyv. rewrite Wvis. by apply elem_of_union_l.
        -- apply elem_of_list_fmap in HyN as ([a y'] & -> & HyN).
           by destruct (r_adj _ _ _ _ _ _ R _ _ _ HyN) as (_ & _ & _ & ?).
      * intros n j Hn Hcn Hnj Hsj. apply elem_of_union. rewrite elem_of_list_to_set.
        apply elem_of_cons in Hn as [->|Hn].
        -- destruct (decide (j ∈ wv)); [auto|]. left. apply HQin. split_and!; [|done|done]. by apply Hadj.
        -- right. eauto.
      * rewrite Wve. apply set_eq. intros k. rewrite !elem_of_union, !elem_of_list_to_set, elem_of_app. tauto.
      * apply NoDup_app. split_and!; [done| |done]. intros k Hk Hk'. apply HKin in Hk as (_ & Hk & _).
        apply Hk. rewrite Wve. apply elem_of_union_r. by apply elem_of_list_to_set.
      * intros k. rewrite elem_of_app, HKin, Hinc. setoid_rewrite elem_of_cons.
        rewrite Wve, elem_of_union, elem_of_list_to_set. rewrite wi_edges0.
        destruct (decide (k ∈ wed)) as [Hd|Hd].
        { pose proof Hd as Hd'. rewrite wi_edges0 in Hd'. naive_solver. }
        rewrite wi_edges0 in Hd. split.
        -- intros [(He1 & Hk0 & Hk1)|(? & ? & n & ? & ? & ?)].
           ++ split; [done|]. split; [tauto|]. exists i. auto.
           ++ exfalso. apply Hd. split_and!; [done|done|]. exists n. auto.
        -- intros (He1 & Hk0 & n & Hn & Hcn & Hkn). left. split_and!; [done|tauto|].
           destruct Hn as [->|Hn]; [done|]. exfalso. apply Hd. split_and!; [done|done|]. exists n. auto.
      * intros y. rewrite Wnc, elem_of_cons. split; [tauto|]. intros [[->|?] ?]; [|tauto].
        exfalso. by eapply connecting_not_nc.
Qed.

(** Result of a walk from one node. *)
Lemma walk_from p V0 K0 s :
  live_node m s → s ∉ V0 →
  ∃ w, walk_loop p g (S (fl_range (g_nodes g))) (Walk V0 K0 [s] [] [] []) = Ok w ∧
    NoDup (w_nodes w) ∧
    (∀ i, i ∈ w_nodes w ↔ rpath m (λ j, wp_should p j = true ∧ j ∉ V0) s i) ∧
    (∀ i, i ∈ w_nodes w → live_node m i ∧ i ∉ V0) ∧
    w_visited w = V0 ∪ list_to_set (w_nodes w) ∧
    NoDup (w_edges w) ∧ w_vedges w = K0 ∪ list_to_set (w_edges w) ∧
    (∀ k, k ∈ w_edges w ↔ wp_edges p = true ∧ k ∉ K0 ∧ ∃ n, n ∈ w_nodes w ∧ connecting m n ∧ incident m k n) ∧
    (∀ i, i ∈ w_nc w ↔ i ∈ w_nodes w ∧ non_connecting m i).
Proof.
  intros Hs HsV.
  assert (walk_loop p g (S (fl_range (g_nodes g))) (Walk V0 K0 [s] [] [] []) =
          walk_loop p g (S (fl_range (g_nodes g))) (Walk ({[s]} ∪ V0) K0 [s] [] [] [])) as ->.
  { simpl. by replace ({[s]} ∪ ({[s]} ∪ V0)) with ({[s]} ∪ V0) by set_solver. }
  destruct (walk_loop_spec p V0 K0 s (S (fl_range (g_nodes g))) (Walk ({[s]} ∪ V0) K0 [s] [] [] [])) as (w & Hw & W & Hst).
  - split; simpl; try done.
    + set_solver.
    + apply NoDup_singleton.
    + intros i Hi%elem_of_list_singleton. by subst.
    + set_solver.
    + intros i Hi%elem_of_list_singleton. subst. split; [constructor|done].
    + intros n j Hn. by apply elem_of_nil in Hn.
    + set_solver.
    + constructor.
    + intros k. split; [intros Hk; by apply elem_of_nil in Hk|].
      intros (_ & _ & n & Hn & _). by apply elem_of_nil in Hn.
    + intros i. split; [intros Hk; by apply elem_of_nil in Hk|]. intros [Hn _]. by apply elem_of_nil in Hn.
  - simpl. lia.
  - exists w. destruct W. rewrite Hst, app_nil_r in *. split_and!; try done.
    + intros i. split; [intros Hi; by apply wi_reach0|].
      induction 1 as [|j k Hj IH Hcj Hadj [Hsk Hk]]; [done|].
      assert (Hv : k ∈ w_visited w) by eauto. rewrite wi_vis0 in Hv.
      apply elem_of_union in Hv as [Hv|Hv]; [done|]. by apply elem_of_list_to_set in Hv.
    + intros i Hi. split; [|auto]. by apply wi_reach0.
Qed.
End walk.
