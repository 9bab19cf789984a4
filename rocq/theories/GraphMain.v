(** Summary lemmas for the property theorems about entity_graph. *)
From Verif Require Import Outcome Chain FreeListModel FreeListProofs GraphModel GraphSpec
  GraphProofs GraphProofs2 GraphProofs3 GraphProofs4 GraphHist GraphWalk GraphComp.

(** ** Consequences of [is_decomposition] for a user *)
Section decomposition.
Context (m : mgraph) (ok : nat → Prop) (start : nat → Prop) (cs : list (list nat * list nat)).
Context (D : is_decomposition m ok start cs).

Lemma dc_member_ok c ns es i : cs !! c = Some (ns, es) → i ∈ ns → ok i.
Proof.
  intros Hc Hi. destruct (dc_nodes _ _ _ _ D _ _ _ Hc) as (s & _ & _ & Hs & Hns).
  apply Hns in Hi. by eapply rpath_ok.
Qed.
Lemma dc_extend c ns es i j :
  cs !! c = Some (ns, es) → i ∈ ns → connecting m i → adjacent m i j → ok j → j ∈ ns.
Proof.
  intros Hc Hi Hci Hij Hj. destruct (dc_nodes _ _ _ _ D _ _ _ Hc) as (s & _ & _ & Hs & Hns).
  apply Hns. apply Hns in Hi. by eapply rp_step.
Qed.

(** An edge belongs to one component only. *)
Lemma dc_edge_once c c' ns es ns' es' k :
  cs !! c = Some (ns, es) → cs !! c' = Some (ns', es') → k ∈ es → k ∈ es' → c = c'.
Proof.
  intros Hc Hc' Hk Hk'.
  apply (dc_edges _ _ _ _ D _ _ _ Hc) in Hk as (n & Hn & Hcn & Hkn).
  apply (dc_edges _ _ _ _ D _ _ _ Hc') in Hk' as (n' & Hn' & Hcn' & Hkn').
  destruct (incident_two m k n n' Hkn Hkn') as [->|Hadj].
  - by eapply (dc_disj _ _ _ _ D).
  - eapply (dc_disj _ _ _ _ D c c' ns es ns' es' n); try done.
    eapply dc_extend; [exact Hc'|exact Hn'|done|done|]. exact (dc_member_ok _ _ _ _ Hc Hn).
Qed.

(** A non-connecting node belongs to a component iff it is an allowed
    neighbour of one of its connecting nodes. *)
Lemma dc_non_connecting c ns es i :
  cs !! c = Some (ns, es) → non_connecting m i →
  i ∈ ns ↔ ok i ∧ ∃ n, n ∈ ns ∧ connecting m n ∧ adjacent m n i.
Proof.
  intros Hc Hi. split.
  - intros Hin. split; [exact (dc_member_ok _ _ _ _ Hc Hin)|].
    destruct (dc_nodes _ _ _ _ D _ _ _ Hc) as (s & _ & Hcs & Hs & Hns).
    apply Hns in Hin. destruct Hin as [|j k Hj Hcj Hadj Hk].
    + exfalso. by eapply connecting_not_nc.
    + exists j. split; [by apply Hns|]. done.
  - intros (Hoki & n & Hn & Hcn & Hadj). by eapply dc_extend.
Qed.
End decomposition.

Lemma rpath_cpath m s i : connecting m s → connecting m i → rpath m (λ _, True) s i ↔ cpath m s i.
Proof.
  intros Hs Hi. split.
  - intros Hp. revert Hi. induction Hp as [|j k Hj IH Hcj Hadj Hk]; intros Hi; [by constructor|]. econstructor; eauto.
  - intros Hp. clear Hi. induction Hp as [|j k Hj IH Hadj Hk]; [constructor|]. econstructor; [exact IH| |done|done].
    inversion Hj; done.
Qed.

(** Two connecting nodes share a component iff a path joins them. *)
Lemma dc_share m cs i j :
  is_decomposition m (λ _, True) (λ _, True) cs → connecting m i → connecting m j →
  (∃ c ns es, cs !! c = Some (ns, es) ∧ i ∈ ns ∧ j ∈ ns) ↔ cpath m i j.
Proof.
  intros D Hi Hj. rewrite <- rpath_cpath by done. split.
  - intros (c & ns & es & Hc & Hin & Hjn).
    destruct (dc_nodes _ _ _ _ D _ _ _ Hc) as (s & _ & Hcs & Hs & Hns).
    apply Hns in Hin, Hjn. eapply rpath_trans; [|exact Hjn]. by apply rpath_sym.
  - intros Hp. destruct (dc_cover _ _ _ _ D i I Hi I) as (c & ns & es & Hc & Hin).
    exists c, ns, es. split_and!; [done|done|].
    destruct (dc_nodes _ _ _ _ D _ _ _ Hc) as (s & _ & Hcs & Hs & Hns).
    apply Hns. apply Hns in Hin. by eapply rpath_trans.
Qed.

(** ** Mapping indices to entities *)
Definition node_ent (m : mgraph) (i : nat) : option nat := fst <$> mg_nodes m !! i.
Definition edge_ent (m : mgraph) (k : nat) : option nat := (λ e, e.1.1) <$> mg_edges m !! k.

Lemma node_payload_spec g m i : ginv g m → live_node m i → node_payload g i = node_ent m i.
Proof.
  intros (N & E & LA & R) [[x nc] Hi].
  destruct (grep_node_plain _ _ _ _ _ _ _ _ R Hi) as (h & nx & He & _).
  unfold node_payload, node_ent. by rewrite He, Hi.
Qed.
Lemma edge_payload_spec g m k : ginv g m → is_Some (mg_edges m !! k) → edge_payload g k = edge_ent m k.
Proof.
  intros (N & E & LA & R) [[[x i] j] Hk].
  destruct (r_edge _ _ _ _ _ _ R _ _ _ _ Hk) as (a0 & a1 & nx & He & _ & _).
  unfold edge_payload, edge_ent. by rewrite He, Hk.
Qed.

Lemma adjacent_live g m i j : ginv g m → adjacent m i j → live_node m i ∧ live_node m j.
Proof.
  intros (N & E & LA & R) (k & x & [Hk|Hk]);
    destruct (r_edge _ _ _ _ _ _ R _ _ _ _ Hk) as (a0 & a1 & nx & He & ? & ?); done.
Qed.

Lemma components_main g m :
  hist false g m → (∃ i, connecting m i) →
  ∃ cs, connected_components g =
      Ok (map (λ c, (map (node_ent m) c.1, map (edge_ent m) c.2)) cs) ∧
    is_decomposition m (λ _, True) (λ _, True) cs ∧
    (∀ c ns es, cs !! c = Some (ns, es) →
       (∀ i, i ∈ ns → live_node m i) ∧ (∀ k, k ∈ es → is_Some (mg_edges m !! k))).
Proof.
  intros Hh Hex. destruct (hist_inv _ _ _ Hh) as [(N & E & LA & R) Hc].
  destruct (component_indices_spec g m N E LA R (Hc eq_refl) Hex) as (cs & Hcs & D).
  assert (Hinv : ginv g m) by (by exists N, E, LA).
  assert (Hlive : ∀ c ns es, cs !! c = Some (ns, es) →
       (∀ i, i ∈ ns → live_node m i) ∧ (∀ k, k ∈ es → is_Some (mg_edges m !! k))).
  { intros c ns es Hc'. split.
    - intros i Hi. destruct (dc_nodes _ _ _ _ D _ _ _ Hc') as (s & _ & [x Hcs'] & Hs & Hns).
      apply Hns in Hi. destruct Hi as [|j k Hj Hcj Hadj Hk]; [by eexists|].
      by apply (adjacent_live g m j k).
    - intros k Hk. apply (dc_edges _ _ _ _ D _ _ _ Hc') in Hk as (n & Hn & Hcn & j & x & [Hk|Hk]); by eexists. }
  exists cs. unfold connected_components. rewrite Hcs. cbn [mbind res_bind]. split_and!; [|done|done].
  f_equal. apply map_ext_in. intros [ns es] Hin. apply elem_of_list_In, elem_of_list_lookup in Hin as [c Hc'].
  destruct (Hlive c ns es Hc') as [Hn He]. simpl. f_equal; apply map_ext_in; intros a Ha; apply elem_of_list_In in Ha.
  - by apply node_payload_spec, Hn.
  - by apply edge_payload_spec, He.
Qed.

Lemma components_none_main g m :
  hist false g m → (∀ i, ¬ connecting m i) → connected_components g = Ok [([], [])].
Proof.
  intros Hh Hn. destruct (hist_inv _ _ _ Hh) as [(N & E & LA & R) Hc].
  unfold connected_components. by rewrite (component_indices_none g m N E LA R (Hc eq_refl) Hn).
Qed.

Lemma is_single_main g m :
  hist false g m → mg_nodes m ≠ ∅ →
  ∃ b, is_single_connected_component g = Ok b ∧
    (b = true ↔ ∀ i j, connecting m i → connecting m j → cpath m i j).
Proof.
  intros Hh Hne. destruct (hist_inv _ _ _ Hh) as [Hinv Hc]. pose proof (obs_num_nodes g m Hinv) as Hnum.
  destruct Hinv as (N & E & LA & R). apply (is_single_spec g m N E LA R (Hc eq_refl)).
  rewrite Hnum. apply map_size_non_empty_iff in Hne. lia.
Qed.

Lemma traverse_main c g m s :
  hist c g m → live_node m s →
  ∃ ns es, traverse g s = Ok (ns, es) ∧ NoDup ns ∧ NoDup es ∧
    (∀ i, i ∈ ns ↔ rpath m (λ _, True) s i) ∧
    (∀ k, k ∈ es ↔ ∃ n, n ∈ ns ∧ connecting m n ∧ incident m k n).
Proof.
  intros Hh Hs. destruct (hist_inv _ _ _ Hh) as [(N & E & LA & R) Hc].
  by eapply traverse_spec.
Qed.

Lemma reach_main c g m should starts :
  hist c g m → starts ≠ [] → (∀ s, s ∈ starts → connecting m s) →
  ∃ cs, reach g should starts = Ok cs ∧
    is_decomposition m (λ j, should j = true) (λ s, s ∈ starts) cs.
Proof.
  intros Hh Hne Hs. destruct (hist_inv _ _ _ Hh) as [(N & E & LA & R) Hc].
  by eapply reach_spec.
Qed.

(** What every observer returns, in terms of the abstract graph. *)
Record observes (g : graph) (m : mgraph) : Prop := {
  ob_num_nodes : num_nodes g = Z.of_nat (size (mg_nodes m));
  ob_num_edges : num_edges g = Z.of_nat (size (mg_edges m));
  ob_node : ∀ i x nc, mg_nodes m !! i = Some (x, nc) →
    node_entity g i = Ok x ∧ is_connecting_node g i = Ok (negb nc);
  ob_edge : ∀ k x i j, mg_edges m !! k = Some (x, i, j) →
    edge_entity g k = Ok x ∧ edge_node_indices g k = Ok (Some i, Some j) ∧
    edge_node_entities g k = Ok (fst <$> mg_nodes m !! i, fst <$> mg_nodes m !! j);
  ob_has_adjacency : ∀ i j, live_node m i →
    ∃ b, has_adjacency g i j = Ok b ∧ (b = true ↔ adjacent m i j);
  ob_visit_edges2 : ∀ i j, live_node m i → live_node m j →
    ∃ ks, visit_edges2 g i j = Ok ks ∧ NoDup ks ∧ (∀ k, k ∈ ks ↔ joins m k i j);
  ob_visit_edges : ∀ i, live_node m i →
    ∃ ks, visit_edges g i = Ok ks ∧ NoDup ks ∧ (∀ k, k ∈ ks ↔ incident m k i);
  ob_visit_neighbors : ∀ i, live_node m i →
    ∃ js xs, visit_neighbors g i = Ok xs ∧ NoDup js ∧ (∀ j, j ∈ js ↔ adjacent m i j) ∧
      Forall2 (λ j x, ∃ nc, mg_nodes m !! j = Some (x, nc)) js xs
}.

Lemma graph_refines_main c g m :
  hist c g m →
  observes g m ∧
  ∀ o, legal m o → ∃ g' r, gstep g o = Ok (g', r) ∧ fresh_result m o r ∧
    hist (c || match o with MClear => true | _ => false end) g' (mnext m o r).
Proof.
  intros Hh. destruct (hist_inv _ _ _ Hh) as [Hi _]. split.
  - split.
    + by apply obs_num_nodes.
    + by apply obs_num_edges.
    + intros. by eapply obs_node.
    + intros. by eapply obs_edge.
    + intros. by eapply obs_has_adjacency.
    + intros. by eapply obs_visit_edges2.
    + intros. by eapply obs_visit_edges.
    + intros. by eapply obs_visit_neighbors.
  - intros o Hl. destruct (gstep_spec g m o Hi Hl) as (g' & r & Hs & Hf & _).
    exists g', r. split_and!; [done|done|]. by econstructor.
Qed.

(** ** Refutation witnesses *)

(** A graph with two nodes. *)
Definition run (os : list mop) : res graph :=
  foldl (λ rg o, g ← rg; '(g, _) ← gstep g o; Ok g) (Ok g_empty) os.

Lemma self_loop_witness :
  ∃ g, run [MInsertNode 7 false; MInsertEdge 8 0 0] = Ok g ∧ gstep g (MInsertEdge 9 0 0) = AssertFail.
Proof. eexists. split; vm_compute; reflexivity. Qed.

Lemma clear_ghost_witness :
  ∃ g, run [MInsertNode 7 false; MClear] = Ok g ∧ num_nodes g = 0%Z ∧
    connected_components g = Ok [([Some 7], [])] ∧
    connected_components g_empty = Ok [([], [])].
Proof. eexists. split; [vm_compute; reflexivity|]. split_and!; vm_compute; reflexivity. Qed.

(** The general form: every former connecting node that was isolated stays
    visible after [clear]. *)
Lemma clear_main c g m :
  hist c g m → hist true (g_clear g) mg_empty ∧ num_nodes (g_clear g) = 0%Z ∧ num_edges (g_clear g) = 0%Z.
Proof.
  intros Hh. assert (H : hist true (g_clear g) mg_empty).
  { assert (hist (c || true) (g_clear g) (mnext m MClear None)) as H.
    { eapply (hist_step c g m MClear); [done|exact I|done]. }
    by rewrite orb_true_r in H. }
  split; [done|]. destruct (hist_inv _ _ _ H) as [Hi _].
  rewrite (obs_num_nodes _ _ Hi), (obs_num_edges _ _ Hi). done.
Qed.


Lemma find_start_payload els els' : fst <$> els = fst <$> els' →
  ∀ base V, find_start els base V = find_start els' base V.
Proof.
  revert els'. induction els as [|e els IH]; intros [|e' els'] Heq base V; try done.
  simpl in Heq. injection Heq as He Heq. simpl. rewrite He. case_decide; [done|]. by apply IH.
Qed.
Lemma clear_payloads {T} (l : free_list T) : fst <$> fl_elem (fl_clear l) = fst <$> fl_elem l.
Proof.
  apply list_eq. intros i. rewrite !list_lookup_fmap. apply fl_clear_payload.
Qed.

Lemma walk_edges_nodes g fuel : ∀ h w w', walk_edges g fuel h w = Ok w' → w_nodes w' = w_nodes w.
Proof.
  induction fuel as [|fuel IH]; intros [k|] w w' H; try (by unfold walk_edges in H; simplify_eq).
  unfold walk_edges in H; fold walk_edges in H.
  apply bind_ok in H as (e & _ & H). case_decide; [by apply IH in H|].
  apply bind_ok in H as (_ & _ & H). by apply IH in H.
Qed.
Lemma walk_adjs_nodes p g fuel : ∀ h w w', walk_adjs p g fuel h w = Ok w' → w_nodes w' = w_nodes w.
Proof.
  induction fuel as [|fuel IH]; intros [k|] w w' H; try (by unfold walk_adjs in H; simplify_eq).
  unfold walk_adjs in H; fold walk_adjs in H.
  apply bind_ok in H as (ae & _ & H). apply bind_ok in H as (w1 & H1 & H).
  assert (Hw1 : w_nodes w1 = w_nodes w).
  { destruct (wp_edges p); [by apply walk_edges_nodes in H1|by simplify_eq]. }
  apply bind_ok in H as (nb & _ & H). apply bind_ok in H as (_ & _ & H).
  apply IH in H. rewrite H. by case_decide.
Qed.
Lemma walk_loop_nodes p g fuel : ∀ w w', walk_loop p g fuel w = Ok w' →
  ∃ l, w_nodes w' = l ++ w_nodes w ∧
    ∀ i st, w_stack w = i :: st → ∃ l', w_nodes w' = l' ++ i :: w_nodes w.
Proof.
  induction fuel as [|fuel IH]; intros w w' H; simpl in H; destruct (w_stack w) as [|i st] eqn:Hst;
    try discriminate; try (simplify_eq; exists []; split; [done|]; intros; congruence).
  apply bind_ok in H as (_ & _ & H). apply bind_ok in H as (ne & _ & H). apply bind_ok in H as (_ & _ & H).
  assert (Hex : ∃ l, w_nodes w' = l ++ i :: w_nodes w).
  { destruct (n_nc ne.1).
    - apply IH in H as (l & Hl & _). eauto.
    - apply bind_ok in H as (w1 & H1 & H). apply walk_adjs_nodes in H1. apply IH in H as (l & Hl & _).
      exists l. rewrite Hl, H1. done. }
  destruct Hex as [l Hl]. exists (l ++ [i]). split; [by rewrite Hl, <- app_assoc|].
  intros i' st' ?. simplify_eq. eauto.
Qed.

(** After [clear] of a graph with a connecting node, connected_components (if it
    returns at all) starts with an entity of the graph that was cleared. *)
Lemma clear_ghost_main g m i cs :
  hist false g m → connecting m i → connected_components (g_clear g) = Ok cs →
  ∃ x ns es r j, cs = (Some x :: ns, es) :: r ∧ mg_nodes m !! j = Some (x, false).
Proof.
  intros Hh Hi H. destruct (hist_inv _ _ _ Hh) as [(N & E & LA & R) Hc]. specialize (Hc eq_refl).
  unfold connected_components, component_indices in H.
  assert (Hfs : ∀ V, find_start (fl_elem (g_nodes (g_clear g))) 0 V = find_start (fl_elem (g_nodes g)) 0 V).
  { intros V. apply find_start_payload. simpl. apply clear_payloads. }
  rewrite Hfs in H. pose proof (start_spec g m N E LA R Hc ∅) as Hst.
  destruct (find_start (fl_elem (g_nodes g)) 0 ∅) as [s|]; [|by apply Hst in Hi; set_solver].
  destruct Hst as [_ [x Hs]].
  apply bind_ok in H as (ci & Hci & H). cbn [components_loop] in Hci.
  apply bind_ok in Hci as (w & Hw & Hci).
  destruct (walk_loop_nodes _ _ _ _ _ Hw) as (_ & _ & Hn). destruct (Hn s [] eq_refl) as [l Hl].
  simpl in Hl. clear Hn.
  assert (Hr : ∃ r, ci = (s :: reverse l, reverse (w_edges w)) :: r).
  { assert (Hrev : reverse (w_nodes w) = s :: reverse l) by (rewrite Hl, reverse_app; done).
    rewrite Hrev in Hci. destruct (find_start _ _ _) as [t|].
    - apply bind_ok in Hci as (r & _ & Hci). simplify_eq. eauto.
    - simplify_eq. eauto. }
  destruct Hr as [r ->]. simpl in H. simplify_eq.
  destruct (grep_node_plain _ _ _ _ _ _ _ _ R Hs) as (h & nx & He & _).
  assert (Hp : node_payload (g_clear g) s = Some x).
  { unfold node_payload. simpl. pose proof (fl_clear_payload (g_nodes g) s) as Hcp. rewrite He in Hcp.
    destruct (fl_elem (fl_clear (g_nodes g)) !! s) as [[nd nx']|]; simpl in Hcp; simplify_eq. done. }
  rewrite Hp. by eexists _, _, _, _, s.
Qed.

(** ** Checking concrete histories by computation *)
Definition edge_list (m : mgraph) : list (nat * (nat * nat * nat)) := map_to_list (mg_edges m).
Definition legalb (m : mgraph) (o : mop) : bool :=
  match o with
  | MInsertNode _ _ | MClear => true
  | MRemoveNode i =>
    bool_decide (is_Some (mg_nodes m !! i)) &&
    forallb (λ e, negb (bool_decide (e.2.1.2 = i)) && negb (bool_decide (e.2.2 = i))) (edge_list m)
  | MInsertEdge _ i j =>
    bool_decide (is_Some (mg_nodes m !! i)) && bool_decide (is_Some (mg_nodes m !! j)) && negb (bool_decide (i = j))
  | MRemoveEdge k => bool_decide (is_Some (mg_edges m !! k))
  | MRemoveAllEdges i => bool_decide (is_Some (mg_nodes m !! i))
  | MSetConnecting i _ => bool_decide (is_Some (mg_nodes m !! i))
  end.
Lemma legalb_sound m o : legalb m o = true → legal m o.
Proof.
  destruct o as [x nc|i|x i j|k|i|i c|]; simpl; try done.
  - intros [Hl Hf]%andb_true_iff. apply bool_decide_eq_true in Hl. split; [done|].
    intros k (j & x & Hk). rewrite forallb_forall in Hf.
    destruct Hk as [Hk|Hk]; apply elem_of_map_to_list, elem_of_list_In, Hf in Hk; simpl in Hk;
      apply andb_true_iff in Hk as [H1 H2]; apply negb_true_iff in H1, H2;
      apply bool_decide_eq_false in H1, H2; done.
  - intros [[Hi Hj]%andb_true_iff Hn]%andb_true_iff. apply bool_decide_eq_true in Hi, Hj.
    apply negb_true_iff, bool_decide_eq_false in Hn. done.
  - apply bool_decide_eq_true.
  - apply bool_decide_eq_true.
  - apply bool_decide_eq_true.
Qed.

Fixpoint run_check (os : list mop) (g : graph) (m : mgraph) : option (graph * mgraph) :=
  match os with
  | [] => Some (g, m)
  | o :: os =>
    if legalb m o then
      match gstep g o with
      | Ok (g', r) => run_check os g' (mnext m o r)
      | _ => None
      end
    else None
  end.
Definition no_clear (os : list mop) : bool :=
  forallb (λ o, match o with MClear => false | _ => true end) os.
Lemma run_check_sound os : ∀ g m g' m',
  hist false g m → no_clear os = true → run_check os g m = Some (g', m') → hist false g' m'.
Proof.
  induction os as [|o os IH]; intros g m g' m' Hh Hn Hr; simpl in *; [by simplify_eq|].
  apply andb_true_iff in Hn as [Hn1 Hn].
  destruct (legalb m o) eqn:Hl; [|done]. destruct (gstep g o) as [[g1 r]| | |] eqn:Hs; try done.
  eapply IH; [|done|exact Hr]. apply legalb_sound in Hl.
  pose proof (hist_step _ _ _ _ _ _ Hh Hl Hs) as Hh'. by destruct o.
Qed.
