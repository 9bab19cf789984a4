(** Decompositions computed by connected_components and reach. *)
From Verif Require Import Outcome Chain FreeListModel FreeListProofs GraphModel GraphSpec
  GraphProofs GraphProofs2 GraphProofs3 GraphProofs4 GraphHist GraphWalk.

Lemma find_start_spec els : ∀ base (V : gset nat),
  match find_start els base V with
  | Some i => base ≤ i ∧ i ∉ V ∧ ∃ e, els !! (i - base) = Some e ∧ is_Some (n_ent e.1) ∧ n_nc e.1 = false
  | None => ∀ i e, els !! i = Some e → is_Some (n_ent e.1) → n_nc e.1 = false → base + i ∈ V
  end.
Proof.
  induction els as [|e els IH]; intros base V; simpl.
  { intros i e He. by rewrite lookup_nil in He. }
  case_decide as Hd.
  - destruct Hd as (Hv & Hs & Hn). split; [lia|]. split; [done|]. exists e. rewrite Nat.sub_diag. done.
  - specialize (IH (S base) V). destruct (find_start els (S base) V) as [i|].
    + destruct IH as (Hle & Hv & e' & He & Hs & Hn). split; [lia|]. split; [done|].
      exists e'. replace (i - base) with (S (i - S base)) by lia. done.
    + intros [|i] e' He Hs Hn; simpl in He.
      * simplify_eq. rewrite Nat.add_0_r. destruct (decide (base ∈ V)); [done|]. exfalso. auto.
      * specialize (IH i e' He Hs Hn). by replace (base + S i) with (S base + i) by lia.
Qed.

Lemma rpath_mono m (ok ok' : nat → Prop) s i :
  (∀ j, ok j → ok' j) → rpath m ok s i → rpath m ok' s i.
Proof. intros Hi. induction 1; econstructor; eauto. Qed.
Lemma rpath_ok m (ok : nat → Prop) s i : rpath m ok s i → ok s → ok i.
Proof. by destruct 1. Qed.

(** The first node of a path through connecting nodes can be exchanged. *)
Lemma rpath_trans m ok s j i : rpath m ok s j → rpath m ok j i → rpath m ok s i.
Proof. intros H1. induction 1; [done|]. econstructor; eauto. Qed.
Lemma rpath_sym m (ok : nat → Prop) s i :
  ok s → connecting m s → rpath m ok s i → connecting m i → rpath m ok i s.
Proof.
  intros Hs Hc. induction 1 as [|j k Hj IH Hcj Hadj Hk]; intros Hi; [constructor|].
  eapply rpath_trans; [|by apply IH]. eapply rp_step; [constructor|done|by apply adjacent_sym|].
  by eapply rpath_ok.
Qed.

Section comp.
Context (g : graph) (m : mgraph) (N : nat → list (nat * nat)) (E : nat → nat → list nat) (LA : gset nat).
Context (R : grep None g m N E LA).
Context (should : nat → bool).
Notation ok := (λ j, should j = true).

(** [V]: connecting nodes of the components already emitted; [K]: their edges. *)
Record vclosed (V K : gset nat) : Prop := {
  vc_con : ∀ v, v ∈ V → connecting m v ∧ ok v;
  vc_closed : ∀ v w, v ∈ V → adjacent m v w → connecting m w → ok w → w ∈ V;
  vc_edges : ∀ k, k ∈ K → ∃ v, v ∈ V ∧ incident m k v
}.

Lemma rpath_restrict V K s i :
  vclosed V K → s ∉ V → connecting m s → ok s →
  rpath m (λ j, should j = true ∧ j ∉ V) s i ↔ rpath m ok s i.
Proof.
  intros HV Hs Hcs Hoks. split; [apply rpath_mono; tauto|].
  induction 1 as [|j k Hj IH Hcj Hadj Hk]; [constructor|].
  econstructor; [exact IH|done|done|]. split; [done|]. intros HkV.
  assert (HjV : j ∈ V).
  { eapply vc_closed; [done|exact HkV|by apply adjacent_sym|done|]. by apply (rpath_ok m (λ j, should j = true) s j). }
  destruct IH; [done|]. tauto.
Qed.

Lemma incident_two k n v : incident m k n → incident m k v → n = v ∨ adjacent m v n.
Proof.
  intros [j Hj] [j' Hj']. destruct (joins_ends _ _ _ _ _ _ Hj Hj') as [[-> _]|[-> ->]]; [auto|].
  right. by exists k.
Qed.

Lemma walk_component V K s fifo check :
  vclosed V K → connecting m s → s ∉ V → ok s →
  ∃ w, walk_loop (WP true check should fifo) g (S (fl_range (g_nodes g))) (Walk V K [s] [] [] []) = Ok w ∧
    let V' := w_visited w ∖ list_to_set (w_nc w) in
    NoDup (w_nodes w) ∧ (∀ i, i ∈ w_nodes w ↔ rpath m ok s i) ∧
    NoDup (w_edges w) ∧ (∀ k, k ∈ w_edges w ↔ ∃ n, n ∈ w_nodes w ∧ connecting m n ∧ incident m k n) ∧
    vclosed V' (w_vedges w) ∧ (∀ v, v ∈ V' ↔ v ∈ V ∨ (v ∈ w_nodes w ∧ connecting m v)) ∧
    (∀ v, v ∈ w_nodes w → v ∉ V).
Proof.
  intros HV Hcs HsV Hoks. assert (Hls : live_node m s) by (destruct Hcs; by eexists).
  destruct (walk_from g m N E LA R (WP true check should fifo) V K s Hls HsV)
    as (w & Hw & Hnd & Hnodes & Hlive & Hvis & Hend & Hve & Hedges & Hnc).
  simpl in *. setoid_rewrite (rpath_restrict V K s _ HV HsV Hcs Hoks) in Hnodes.
  exists w. split; [done|].
  assert (HV' : ∀ v, v ∈ w_visited w ∖ list_to_set (w_nc w) ↔ v ∈ V ∨ (v ∈ w_nodes w ∧ connecting m v)).
  { intros v. rewrite elem_of_difference, elem_of_list_to_set, Hnc, Hvis, elem_of_union, elem_of_list_to_set.
    split.
    - intros [[?|Hv] Hn]; [auto|]. right. split; [done|].
      destruct (connecting_dec_live m v) as [?|?]; [by apply Hlive|done|]. tauto.
    - intros [Hv|[Hv Hc]].
      + split; [auto|]. intros [Hv' _]. by apply Hlive in Hv' as [_ ?].
      + split; [auto|]. intros [_ Hn]. by eapply connecting_not_nc. }
  assert (Hes : ∀ k, k ∈ w_edges w ↔ ∃ n, n ∈ w_nodes w ∧ connecting m n ∧ incident m k n).
  { intros k. rewrite Hedges. split; [naive_solver|]. intros (n & Hn & Hcn & Hkn). split; [done|].
    split; [|eauto]. intros HkK. destruct (vc_edges _ _ HV k HkK) as (v & Hv & Hkv).
    destruct (Hlive n Hn) as [_ HnV]. destruct (incident_two k n v Hkn Hkv) as [->|Hadj]; [done|].
    apply HnV. eapply vc_closed; [done|exact Hv|done|done|]. apply Hnodes in Hn. by eapply (rpath_ok m ok). }
  split_and!; try done.
  - split.
    + intros v Hv. apply HV' in Hv as [Hv|[Hv Hc]]; [by eapply vc_con|]. split; [done|].
      apply Hnodes in Hv. by eapply (rpath_ok m ok).
    + intros v u Hv Hadj Hcu Hoku. apply HV'. apply HV' in Hv as [Hv|[Hv Hc]].
      * left. by eapply vc_closed.
      * right. split; [|done]. apply Hnodes. apply Hnodes in Hv. by eapply rp_step.
    + intros k Hk. rewrite Hve in Hk. apply elem_of_union in Hk as [Hk|Hk].
      * destruct (vc_edges _ _ HV k Hk) as (v & Hv & Hkv). exists v. split; [|done]. apply HV'. auto.
      * apply elem_of_list_to_set, Hes in Hk as (n & Hn & Hcn & Hkn). exists n. split; [|done]. apply HV'. auto.
  - intros v Hv. by apply Hlive.
Qed.

Lemma vclosed_size V K s : vclosed V K → connecting m s → s ∉ V → size V < fl_range (g_nodes g).
Proof.
  intros HV Hcs Hs.
  assert (size ({[s]} ∪ V) ≤ fl_range (g_nodes g)) as Hle.
  { apply NoDup_bounded_length; [apply NoDup_elements|]. intros i Hi. apply elem_of_elements in Hi.
    apply (live_bound g m N E LA R). apply elem_of_union in Hi as [Hi%elem_of_singleton|Hi].
    - subst. destruct Hcs. by eexists.
    - destruct (vc_con _ _ HV i Hi) as [[x Hx] _]. by eexists. }
  rewrite size_union in Hle by set_solver. rewrite size_singleton in Hle. lia.
Qed.

(** Putting one component in front. *)
Lemma decomposition_cons (start : nat → Prop) (V V' : gset nat) s ns es r :
  start s → connecting m s → ok s → s ∉ V →
  NoDup ns → NoDup es → (∀ i, i ∈ ns ↔ rpath m ok s i) →
  (∀ k, k ∈ es ↔ ∃ n, n ∈ ns ∧ connecting m n ∧ incident m k n) →
  (∀ v, v ∈ V' ↔ v ∈ V ∨ (v ∈ ns ∧ connecting m v)) → (∀ v, v ∈ ns → v ∉ V) →
  (∀ start' : nat → Prop, (∀ t, start' t ↔ start t ∧ t ∉ V') →
    is_decomposition m ok start' r) →
  (∀ c ns es i, r !! c = Some (ns, es) → i ∈ ns → i ∉ V') →
  is_decomposition m ok (λ t, start t ∧ t ∉ V) ((ns, es) :: r) ∧
  (∀ c ns' es' i, ((ns, es) :: r) !! c = Some (ns', es') → i ∈ ns' → i ∉ V).
Proof.
  intros Hst Hcs Hos HsV Hnd Hnde Hns Hes HV' HnsV HD Hr.
  destruct (HD (λ t, start t ∧ t ∉ V') ltac:(done)) as [D1 D2 D3 D4 D5].
  split.
  - split.
    + intros [|c] ns' es' Hc; simpl in Hc; [by simplify_eq|]. eauto.
    + intros [|c] ns' es' Hc; simpl in Hc; [simplify_eq; eauto 6|].
      destruct (D2 _ _ _ Hc) as (t & (Ht & HtV) & Hct & Hot & Hin). exists t. split_and!; try done.
      intros HV. apply HtV, HV'. auto.
    + intros [|c] ns' es' Hc; simpl in Hc; [by simplify_eq|]. eauto.
    + intros t [Ht HtV] Hct Hot. destruct (decide (t ∈ V')) as [HtV'|HtV'].
      * exists 0, ns, es. split; [done|]. apply HV' in HtV'. tauto.
      * destruct (D4 t) as (c & ns' & es' & Hc & Hin); [done|done|done|]. exists (S c), ns', es'. done.
    + intros [|c] [|c'] n1 e1 n2 e2 i H1 H2 Hi1 Hi2 Hci; simpl in *; simplify_eq.
      * done.
      * exfalso. eapply Hr; [exact H2|exact Hi2|]. apply HV'. auto.
      * exfalso. eapply Hr; [exact H1|exact Hi1|]. apply HV'. auto.
      * f_equal. eauto.
  - intros [|c] ns' es' i Hc Hi; simpl in Hc; [simplify_eq; auto|].
    intros HV. eapply Hr; [exact Hc|exact Hi|]. apply HV'. auto.
Qed.

Lemma reach_loop_spec starts : ∀ V K w,
  vclosed V K → w_visited w = V → w_vedges w = K →
  (∀ s, s ∈ starts → connecting m s) →
  ∃ cs, reach_loop g should starts w = Ok cs ∧
    is_decomposition m ok (λ s, s ∈ starts ∧ s ∉ V) cs ∧
    (∀ c ns es i, cs !! c = Some (ns, es) → i ∈ ns → i ∉ V).
Proof.
  induction starts as [|s starts IH]; intros V K w HV Hwv Hwe Hcon.
  { exists []. split; [done|]. split; [|done]. split; try done. intros s [Hs _]. by apply elem_of_nil in Hs. }
  cbn [reach_loop]. destruct (Hcon s) as [x Hx]; [set_solver|].
  destruct (grep_node_plain _ _ _ _ _ _ _ _ R Hx) as (h & nx & He & Hc).
  rewrite (fl_get_elem _ _ _ He). cbn [mbind res_bind fst n_nc negb assert_].
  assert (Hskip : (s ∈ V ∨ should s = false) → ∃ cs, reach_loop g should starts w = Ok cs ∧
    is_decomposition m ok (λ t, t ∈ s :: starts ∧ t ∉ V) cs ∧
    (∀ c ns es i, cs !! c = Some (ns, es) → i ∈ ns → i ∉ V)).
  { intros Hs. destruct (IH V K w HV Hwv Hwe) as (cs & Hcs & [D1 D2 D3 D4 D5] & Hd); [set_solver|].
    exists cs. split; [done|]. split; [|done]. split; try done.
    - intros c ns es H. destruct (D2 _ _ _ H) as (t & [? ?] & ? & ? & ?). exists t. split_and!; try done. set_solver.
    - intros t [Ht HtV] Hct Hot. apply D4; [|done|done]. apply elem_of_cons in Ht as [->|Ht]; [|done].
      destruct Hs; congruence. }
  subst V. case_decide as Hv; [by apply Hskip; left|]. destruct (should s) eqn:Hos; [cbn [negb]|by apply Hskip; right].
  subst K. destruct (walk_component (w_visited w) (w_vedges w) s false true HV)
    as (w' & -> & Hnd & Hns & Hnde & Hes & HV' & HV'in & HnsV); [by exists x|done|done|].
  cbn [mbind res_bind]. destruct (IH (w_visited w' ∖ list_to_set (w_nc w')) (w_vedges w')
    (Walk (w_visited w' ∖ list_to_set (w_nc w')) (w_vedges w') [] [] [] []) HV') as (r & -> & HD & Hr);
    [done|done|set_solver|].
  simpl. eexists. split; [done|].
  eapply (decomposition_cons (λ t, t ∈ s :: starts) _ _ s); try done.
  - set_solver.
  - by exists x.
  - by rewrite reverse_Permutation.
  - by rewrite reverse_Permutation.
  - intros i. by rewrite elem_of_reverse.
  - intros k. rewrite elem_of_reverse, Hes. by setoid_rewrite elem_of_reverse.
  - intros v. rewrite elem_of_reverse. done.
  - intros v. rewrite elem_of_reverse. auto.
  - intros start' Hst. destruct HD as [D1 D2 D3 D4 D5]. split; try done.
    + intros c ns es H. destruct (D2 _ _ _ H) as (t & [? ?] & ? & ? & ?). exists t. split_and!; try done.
      apply Hst. set_solver.
    + intros t Ht Hct Hot. apply Hst in Ht as [Ht HtV]. apply D4; [|done|done]. split; [|done].
      apply elem_of_cons in Ht as [->|Ht]; [|done]. exfalso. apply HtV, HV'in. right. split; [|done].
      apply Hns. constructor.
Qed.

Lemma reach_spec starts :
  starts ≠ [] → (∀ s, s ∈ starts → connecting m s) →
  ∃ cs, reach g should starts = Ok cs ∧ is_decomposition m ok (λ s, s ∈ starts) cs.
Proof.
  intros Hne Hcon. unfold reach. rewrite bool_decide_true by done. simpl.
  destruct (reach_loop_spec starts ∅ ∅ (Walk ∅ ∅ [] [] [] [])) as (cs & -> & [D1 D2 D3 D4 D5] & _); [|done|done|done|].
  { split; set_solver. }
  exists cs. split; [done|]. split; try done.
  - intros c ns es H. destruct (D2 _ _ _ H) as (t & [? ?] & ? & ? & ?). eauto 6.
  - intros t Ht Hct Hot. apply D4; [|done|done]. split; [done|set_solver].
Qed.
End comp.

(** ** connected_components *)
Section components.
Context (g : graph) (m : mgraph) (N : nat → list (nat * nat)) (E : nat → nat → list nat) (LA : gset nat).
Context (R : grep None g m N E LA) (Hclean : gclean g m).
Notation ok := (λ j : nat, true = true).

Lemma slot_connecting i e :
  fl_elem (g_nodes g) !! i = Some e → is_Some (n_ent e.1) → n_nc e.1 = false → connecting m i.
Proof.
  intros He Hs Hn. destruct (mg_nodes m !! i) as [[x nc]|] eqn:Hi.
  - destruct (grep_node_plain _ _ _ _ _ _ _ _ R Hi) as (h & nx & He' & _).
    rewrite He in He'. simplify_eq. simpl in Hn. subst. by exists x.
  - exfalso. apply (Hclean i) in He; [|by apply not_elem_of_dom]. rewrite He in Hs. by destruct Hs.
Qed.
Lemma connecting_slot i : connecting m i →
  ∃ e, fl_elem (g_nodes g) !! i = Some e ∧ is_Some (n_ent e.1) ∧ n_nc e.1 = false.
Proof.
  intros [x Hi]. destruct (grep_node_plain _ _ _ _ _ _ _ _ R Hi) as (h & nx & He & _). eauto.
Qed.

Lemma start_spec V :
  match find_start (fl_elem (g_nodes g)) 0 V with
  | Some i => i ∉ V ∧ connecting m i
  | None => ∀ i, connecting m i → i ∈ V
  end.
Proof.
  pose proof (find_start_spec (fl_elem (g_nodes g)) 0 V) as Hf.
  destruct (find_start (fl_elem (g_nodes g)) 0 V) as [i|].
  - destruct Hf as (_ & Hv & e & He & Hs & Hn). rewrite Nat.sub_0_r in He. split; [done|].
    by eapply slot_connecting.
  - intros i Hi. destruct (connecting_slot i Hi) as (e & He & Hs & Hn). by apply (Hf i e).
Qed.

Lemma components_loop_spec fuel : ∀ V K s,
  vclosed m (λ _, true) V K → connecting m s → s ∉ V → S (fl_range (g_nodes g)) ≤ fuel + size V →
  ∃ cs, components_loop g fuel (Walk V K [s] [] [] []) = Ok cs ∧
    is_decomposition m (λ _, True) (λ t, True ∧ t ∉ V) cs ∧
    (∀ c ns es i, cs !! c = Some (ns, es) → i ∈ ns → i ∉ V).
Proof.
  induction fuel as [|fuel IH]; intros V K s HV Hcs HsV Hf;
    pose proof (vclosed_size g m N E LA R (λ _, true) V K s HV Hcs HsV) as Hsz; [lia|].
  cbn [components_loop w_visited w_vedges w_stack].
  destruct (walk_component g m N E LA R (λ _, true) V K s false false HV Hcs HsV eq_refl)
    as (w & -> & Hnd & Hns & Hnde & Hes & HV' & HV'in & HnsV).
  cbn [mbind res_bind].
  set (V' := w_visited w ∖ list_to_set (w_nc w)) in *.
  assert (HsV' : s ∈ V').
  { apply HV'in. right. split; [|done]. apply Hns. constructor. }
  assert (Hsz' : S (size V) ≤ size V').
  { replace (S (size V)) with (size ({[s]} ∪ V)).
    - apply subseteq_size. intros v Hv. apply elem_of_union in Hv as [Hv%elem_of_singleton|Hv]; [by subst|].
      apply HV'in. auto.
    - rewrite size_union by set_solver. by rewrite size_singleton. }
  assert (Hok : ∀ i, rpath m (λ j, true = true) s i ↔ rpath m (λ _, True) s i).
  { intros i. split; apply rpath_mono; done. }
  assert (Hfin : ∀ r, (∀ start' : nat → Prop, (∀ t, start' t ↔ True ∧ t ∉ V') →
      is_decomposition m (λ _, True) start' r) →
    (∀ c ns es i, r !! c = Some (ns, es) → i ∈ ns → i ∉ V') →
    is_decomposition m (λ _, True) (λ t, True ∧ t ∉ V) ((reverse (w_nodes w), reverse (w_edges w)) :: r) ∧
    (∀ c ns' es' i, ((reverse (w_nodes w), reverse (w_edges w)) :: r) !! c = Some (ns', es') → i ∈ ns' → i ∉ V)).
  { intros r HD Hr.
    assert (Hconv : ∀ (st : nat → Prop) r, is_decomposition m (λ j : nat, true = true) st r ↔ is_decomposition m (λ _, True) st r).
    { intros st r0.
      assert (Hok' : ∀ s i, rpath m (λ j, true = true) s i ↔ rpath m (λ _, True) s i).
      { intros s0 i. split; apply rpath_mono; done. }
      split; intros [D1 D2 D3 D4 D5]; split; try done.
      - intros c ns es H. destruct (D2 _ _ _ H) as (t & ? & ? & ? & Hi). exists t. setoid_rewrite <- Hok'. eauto.
      - intros t Ht Hct _. by apply D4.
      - intros c ns es H. destruct (D2 _ _ _ H) as (t & ? & ? & ? & Hi). exists t. setoid_rewrite Hok'. eauto.
      - intros t Ht Hct _. by apply D4. }
    rewrite <- Hconv. setoid_rewrite <- Hconv in HD.
    eapply (decomposition_cons m (λ _, true) (λ _, True) V V' s); try done.
    - by rewrite reverse_Permutation.
    - by rewrite reverse_Permutation.
    - intros i. by rewrite elem_of_reverse.
    - intros k. rewrite elem_of_reverse, Hes. by setoid_rewrite elem_of_reverse.
    - intros v. rewrite elem_of_reverse. done.
    - intros v. rewrite elem_of_reverse. auto. }
  pose proof (start_spec V') as Hst.
  destruct (find_start (fl_elem (g_nodes g)) 0 V') as [t|].
  - destruct Hst as [HtV' Hct].
    destruct (IH V' (w_vedges w) t HV' Hct HtV') as (r & -> & HD & Hr); [lia|].
    cbn [mbind res_bind]. eexists. split; [done|]. apply Hfin; [|done].
    intros start' Hs'. destruct HD as [D1 D2 D3 D4 D5]. split; try done.
    + intros c ns es H. destruct (D2 _ _ _ H) as (u & ? & ? & ? & ?). exists u. split_and!; try done. by apply Hs'.
    + intros u Hu. apply D4. by apply Hs'.
  - eexists. split; [done|]. apply Hfin; [|done].
    intros start' Hs'. split; try done. intros u Hu Hcu _. apply Hs' in Hu as [_ Hu]. exfalso. auto.
Qed.

Lemma component_indices_spec :
  (∃ i, connecting m i) →
  ∃ cs, component_indices g = Ok cs ∧ is_decomposition m (λ _, True) (λ _, True) cs.
Proof.
  intros [i Hi]. unfold component_indices. pose proof (start_spec ∅) as Hst.
  destruct (find_start (fl_elem (g_nodes g)) 0 ∅) as [s|].
  - destruct Hst as [_ Hcs].
    destruct (components_loop_spec (S (fl_range (g_nodes g))) ∅ ∅ s) as (cs & -> & [D1 D2 D3 D4 D5] & _).
    + split; set_solver.
    + done.
    + set_solver.
    + lia.
    + exists cs. split; [done|]. split; try done.
      * intros c ns es H. destruct (D2 _ _ _ H) as (u & ? & ? & ? & ?). eauto 6.
      * intros u _ Hcu _. apply D4; [|done|done]. split; [done|set_solver].
  - apply Hst in Hi. set_solver.
Qed.

(** With no connecting node the result is one empty component. *)
Lemma component_indices_none :
  (∀ i, ¬ connecting m i) → component_indices g = Ok [([], [])].
Proof.
  intros Hn. unfold component_indices.
  assert (Hnone : ∀ V, find_start (fl_elem (g_nodes g)) 0 V = None).
  { intros V. pose proof (start_spec V) as Hst.
    destruct (find_start (fl_elem (g_nodes g)) 0 V) as [s|]; [|done]. destruct Hst as [_ Hs]. by apply Hn in Hs. }
  rewrite Hnone. simpl. by rewrite Hnone.
Qed.

Lemma is_single_spec :
  (0 < num_nodes g)%Z →
  ∃ b, is_single_connected_component g = Ok b ∧
    (b = true ↔ ∀ i j, connecting m i → connecting m j → cpath m i j).
Proof.
  intros Hn. unfold is_single_connected_component. rewrite bool_decide_true by done.
  cbn [assert_ mbind res_bind].
  pose proof (start_spec ∅) as Hst.
  destruct (find_start (fl_elem (g_nodes g)) 0 ∅) as [s|] eqn:Hfs.
  - destruct Hst as [_ Hcs]. assert (Hls : live_node m s) by (destruct Hcs; by eexists).
    destruct (walk_from g m N E LA R (WP false false (λ _, true) false) ∅ ∅ s Hls)
      as (w & -> & Hnd & Hnodes & Hlive & Hvis & _); [set_solver|].
    cbn [mbind res_bind]. eexists. split; [done|]. rewrite bool_decide_eq_true.
    assert (Hrc : ∀ i, connecting m i → i ∈ w_visited w ↔ cpath m s i).
    { intros i Hi. rewrite Hvis, elem_of_union, elem_of_list_to_set, Hnodes. simpl. split.
      - intros [?|Hp]; [set_solver|].
        revert Hi. induction Hp as [|j k Hj IH Hcj Hadj Hk]; intros Hi; [by constructor|]. econstructor; eauto.
      - intros Hp. right. clear Hi. induction Hp as [|j k Hj IH Hadj Hk]; [constructor|]. econstructor; [exact IH| |done|].
        + inversion Hj; done.
        + split; [done|set_solver]. }
    assert (Hsym : ∀ i j, cpath m i j → cpath m j i).
    { assert (Htr : ∀ i j k, cpath m i j → cpath m j k → cpath m i k).
      { intros i j k H1 H2. induction H2; [done|]. econstructor; eauto. }
      intros i j. induction 1 as [|j k Hj IH Hadj Hk]; [by constructor|].
      eapply Htr; [|exact IH]. econstructor; [by constructor|by apply adjacent_sym|].
      inversion Hj; done. }
    assert (Htr : ∀ i j k, cpath m i j → cpath m j k → cpath m i k).
    { intros i j k H1 H2. induction H2; [done|]. econstructor; eauto. }
    pose proof (start_spec (w_visited w)) as Hst2.
    destruct (find_start (fl_elem (g_nodes g)) 0 (w_visited w)) as [t|].
    + split; [done|]. intros Hall. destruct Hst2 as [Ht Hct]. exfalso. apply Ht, Hrc; auto.
    + split; [|done]. intros _ i j Hi Hj. eapply (Htr i s j).
      * apply Hsym, Hrc; auto.
      * apply Hrc; auto.
  - simpl. eexists. split; [done|]. rewrite bool_decide_eq_true.
    rewrite Hfs. split; [|done]. intros _ i j Hi. apply Hst in Hi. set_solver.
Qed.

Lemma traverse_spec s :
  live_node m s →
  ∃ ns es, traverse g s = Ok (ns, es) ∧ NoDup ns ∧ NoDup es ∧
    (∀ i, i ∈ ns ↔ rpath m (λ _, True) s i) ∧
    (∀ k, k ∈ es ↔ ∃ n, n ∈ ns ∧ connecting m n ∧ incident m k n).
Proof.
  clear Hclean. intros Hs. unfold traverse.
  destruct (walk_from g m N E LA R (WP true true (λ _, true) true) ∅ ∅ s Hs)
    as (w & -> & Hnd & Hnodes & Hlive & Hvis & Hend & Hve & Hedges & Hnc); [set_solver|].
  cbn [mbind res_bind]. eexists _, _. split; [done|]. split_and!.
  - by rewrite reverse_Permutation.
  - by rewrite reverse_Permutation.
  - intros i. rewrite elem_of_reverse, Hnodes. simpl.
    split; apply rpath_mono; [done|]. intros j _. split; [done|set_solver].
  - intros k. rewrite elem_of_reverse, Hedges. setoid_rewrite elem_of_reverse. simpl.
    split; [naive_solver|]. intros (n & ? & ? & ?). split; [done|]. split; [set_solver|]. eauto.
Qed.
End components.
