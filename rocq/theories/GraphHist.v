(** Histories of entity_graph calls and what the observers report. *)
From Verif Require Import Outcome Chain FreeListModel FreeListProofs GraphModel GraphSpec
  GraphProofs GraphProofs2 GraphProofs3 GraphProofs4.

(** One mutating call. *)
Definition gstep (g : graph) (o : mop) : res (graph * option nat) :=
  match o with
  | MInsertNode x nc => '(g, i) ← insert_node g (Some x) nc; Ok (g, Some i)
  | MRemoveNode i => g ← remove_node g i; Ok (g, None)
  | MInsertEdge x i j => '(g, k) ← insert_edge g (Some x) i j; Ok (g, Some k)
  | MRemoveEdge k => g ← remove_edge g k; Ok (g, None)
  | MRemoveAllEdges i => g ← remove_all_edges g i; Ok (g, None)
  | MSetConnecting i c => g ← set_connecting_node g i c; Ok (g, None)
  | MClear => Ok (g_clear g, None)
  end.

(** Histories of legal calls.  The flag tells whether [clear] was called. *)
Inductive hist : bool → graph → mgraph → Prop :=
| hist_init : hist false g_empty mg_empty
| hist_step c g m o g' r :
    hist c g m → legal m o → gstep g o = Ok (g', r) →
    hist (c || match o with MClear => true | _ => false end) g' (mnext m o r).

Lemma gstep_spec g m o :
  ginv g m → legal m o →
  ∃ g' r, gstep g o = Ok (g', r) ∧ fresh_result m o r ∧ ginv g' (mnext m o r) ∧
    (o ≠ MClear → gclean g m → gclean g' (mnext m o r)).
Proof.
  intros Hg Hl. destruct o as [x nc|i|x i j|k|i|i c|]; simpl in *.
  - destruct (insert_node_spec g m x nc Hg) as (g' & i & -> & Hf & Hi & Hc). simpl.
    eexists _, _. split; [done|]. simpl. split_and!; eauto.
  - destruct Hl as [Hl Hn]. destruct (remove_node_spec g m i Hg Hl Hn) as (g' & -> & Hi & Hc). simpl.
    eexists _, _. split; [done|]. simpl. split_and!; eauto.
  - destruct Hl as (Hi & Hj & Hs). destruct (insert_edge_spec g m x i j Hg Hi Hj Hs) as (g' & k & -> & Hf & Hi' & Hc). simpl.
    eexists _, _. split; [done|]. simpl. split_and!; eauto.
  - destruct (remove_edge_spec g m k Hg Hl) as (g' & -> & Hi & Hc). simpl.
    eexists _, _. split; [done|]. simpl. split_and!; eauto.
  - destruct (remove_all_edges_spec g m i Hg Hl) as (g' & -> & Hi & Hc). simpl.
    eexists _, _. split; [done|]. simpl. split_and!; eauto.
  - destruct (set_connecting_spec g m i c Hg Hl) as (g' & -> & Hi & Hc). simpl.
    eexists _, _. split; [done|]. simpl. split_and!; eauto.
  - eexists _, _. split; [done|]. simpl. split_and!; [done|apply ginv_clear|done].
Qed.

Lemma hist_inv c g m : hist c g m → ginv g m ∧ (c = false → gclean g m).
Proof.
  induction 1 as [|c g m o g' r Hh [IH1 IH2] Hl Hs].
  - split; [apply ginv_empty|]. intros _. unfold gclean. simpl. rewrite dom_empty_L. apply fl_empty_clean.
  - destruct (gstep_spec g m o IH1 Hl) as (g'' & r' & Hs' & _ & Hi & Hc).
    rewrite Hs in Hs'. simplify_eq. split; [done|]. intros Hc0. apply orb_false_iff in Hc0 as [-> Hc0].
    apply Hc; [by intros ->|]. auto.
Qed.

(** ** Observers *)
Section observers.
Context (g : graph) (m : mgraph) (Hinv : ginv g m).

Lemma obs_num_nodes : num_nodes g = Z.of_nat (size (mg_nodes m)).
Proof.
  destruct Hinv as (N & E & LA & R). unfold num_nodes, fl_count.
  rewrite (flo_size _ _ (r_nok _ _ _ _ _ _ R)). by rewrite size_dom.
Qed.
Lemma obs_num_edges : num_edges g = Z.of_nat (size (mg_edges m)).
Proof.
  destruct Hinv as (N & E & LA & R). unfold num_edges, fl_count.
  rewrite (flo_size _ _ (r_eok _ _ _ _ _ _ R)). by rewrite size_dom.
Qed.

Lemma obs_node i x nc : mg_nodes m !! i = Some (x, nc) →
  node_entity g i = Ok x ∧ is_connecting_node g i = Ok (negb nc).
Proof.
  intros Hi. destruct Hinv as (N & E & LA & R).
  destruct (grep_node_plain _ _ _ _ _ _ _ _ R Hi) as (h & nx & He & Hc).
  unfold node_entity, is_connecting_node. rewrite (fl_get_elem _ _ _ He). done.
Qed.

Lemma obs_edge k x i j : mg_edges m !! k = Some (x, i, j) →
  edge_entity g k = Ok x ∧ edge_node_indices g k = Ok (Some i, Some j) ∧
  edge_node_entities g k = Ok (fst <$> mg_nodes m !! i, fst <$> mg_nodes m !! j).
Proof.
  intros Hk. destruct Hinv as (N & E & LA & R).
  destruct (r_edge _ _ _ _ _ _ R _ _ _ _ Hk) as (a0 & a1 & nx & He & [[xi nci] Hi] & [[xj ncj] Hj]).
  destruct (grep_node_plain _ _ _ _ _ _ _ _ R Hi) as (hi & nxi & Hei & _).
  destruct (grep_node_plain _ _ _ _ _ _ _ _ R Hj) as (hj & nxj & Hej & _).
  unfold edge_entity, edge_node_indices, edge_node_entities. rewrite (fl_get_elem _ _ _ He). simpl.
  rewrite (fl_get_elem _ _ _ Hei), (fl_get_elem _ _ _ Hej). simpl. by rewrite Hi, Hj.
Qed.

Lemma r_N_iff N E LA i j : grep None g m N E LA → j ∈ (N i).*2 ↔ adjacent m i j.
Proof using Type. clear Hinv.
  intros R. split.
  - intros Hin. apply elem_of_list_fmap in Hin as ([a j'] & -> & Hin).
    destruct (r_adj _ _ _ _ _ _ R _ _ _ Hin) as (_ & _ & Hne & _). simpl.
    destruct (E i j') as [|k ks] eqn:HE; [done|]. exists k. apply (r_E _ _ _ _ _ _ R). rewrite HE. set_solver.
  - intros [k Hk]. apply (r_N _ _ _ _ _ _ R). apply (r_E _ _ _ _ _ _ R) in Hk. intros HE. rewrite HE in Hk.
    by apply elem_of_nil in Hk.
Qed.

Lemma obs_has_adjacency i j : live_node m i →
  ∃ b, has_adjacency g i j = Ok b ∧ (b = true ↔ adjacent m i j).
Proof.
  intros [[x nc] Hi]. destruct Hinv as (N & E & LA & R).
  destruct (grep_node_plain _ _ _ _ _ _ _ _ R Hi) as (h & nx & He & Hc).
  erewrite has_adjacency_spec; [|exact He|exact Hc|exact (r_cells _ _ _ _ _ _ _ R)|exact (r_Nlen _ _ _ _ _ _ _ R)].
  eexists. split; [done|]. rewrite bool_decide_eq_true. by eapply r_N_iff.
Qed.

Lemma collect_E N E LA i j : grep None g m N E LA →
  collect (g_edges g) (fl_range (g_edges g)) (head (E i j)) = Ok (E i j).
Proof.
  intros R. apply collect_chain; [apply (r_echain _ _ _ _ _ _ R)|apply (r_End _ _ _ _ _ _ R)|].
  exact (r_Elen _ _ _ _ _ _ i j R).
Qed.
Lemma collect_N N E LA i x nc h nx : grep None g m N E LA → mg_nodes m !! i = Some (x, nc) →
  fl_elem (g_nodes g) !! i = Some (Node (Some x) nc h, nx) →
  collect (g_adjs g) (fl_range (g_adjs g)) h = Ok (N i).*1.
Proof.
  intros R Hi He. destruct (grep_node_plain _ _ _ _ _ _ _ _ R Hi) as (h' & nx' & He' & Hc). simplify_eq.
  apply collect_chain; [done|by eapply r_Nnd1|]. rewrite fmap_length. exact (r_Nlen _ _ _ _ _ _ _ R).
Qed.

Lemma obs_visit_edges2 i j : live_node m i → live_node m j →
  ∃ ks, visit_edges2 g i j = Ok ks ∧ NoDup ks ∧ (∀ k, k ∈ ks ↔ joins m k i j).
Proof.
  intros [[x nc] Hi] [[y nc'] Hj]. destruct Hinv as (N & E & LA & R).
  destruct (grep_node_plain _ _ _ _ _ _ _ _ R Hi) as (h & nx & He & Hc).
  destruct (grep_node_plain _ _ _ _ _ _ _ _ R Hj) as (h' & nx' & He' & Hc').
  unfold visit_edges2. rewrite (fl_get_elem _ _ _ He). simpl. rewrite bool_decide_true.
  2:{ by eapply lookup_lt_Some. }
  simpl. exists (E i j).
  destruct (find_adj_spec _ _ (N i) j (fl_range (g_adjs g)) Hc) as [(L1 & a & L2 & HN & HjL1 & ->)|[HjN ->]].
  { exact (r_cells _ _ _ _ _ _ _ R). } { exact (r_Nlen _ _ _ _ _ _ _ R). }
  - simpl. destruct (r_adj _ _ _ _ _ _ R i a j) as (anx & Hae & _); [rewrite HN; set_solver|].
    rewrite (fl_get_elem _ _ _ Hae). simpl. rewrite (collect_E _ _ _ _ _ R).
    split_and!; [done|apply (r_End _ _ _ _ _ _ R)|apply (r_E _ _ _ _ _ _ R)].
  - simpl. split_and!; [|apply (r_End _ _ _ _ _ _ R)|apply (r_E _ _ _ _ _ _ R)].
    destruct (E i j) eqn:HE; [done|]. exfalso. apply HjN, (r_N _ _ _ _ _ _ R). by rewrite HE.
Qed.

Lemma visit_edges_fold N E LA i L :
  grep None g m N E LA → (∀ p, p ∈ L → p ∈ N i) →
  foldr (λ a acc,
    ae ← fl_get (g_adjs g) (Some a);
    ks ← collect (g_edges g) (fl_range (g_edges g)) (a_edge ae.1);
    r ← acc;
    Ok (ks ++ r)) (Ok []) L.*1 = Ok (concat ((λ p, E i p.2) <$> L)).
Proof.
  intros R. induction L as [|[a j] L IH]; intros HL; [done|]. simpl.
  destruct (r_adj _ _ _ _ _ _ R i a j) as (anx & Hae & _); [apply HL; set_solver|].
  rewrite (fl_get_elem _ _ _ Hae). simpl. rewrite (collect_E _ _ _ _ _ R). simpl.
  setoid_rewrite IH; [|set_solver]. done.
Qed.

Lemma NoDup_concat_E N E LA i (L : list (nat * nat)) :
  grep None g m N E LA → NoDup L.*2 → NoDup (concat ((λ p, E i p.2) <$> L)).
Proof.
  intros R. induction L as [|[a j] L IH]; intros Hnd; [constructor|]. simpl in *.
  apply NoDup_cons in Hnd as [Hj Hnd]. apply NoDup_app. split_and!; [apply (r_End _ _ _ _ _ _ R)| |auto].
  intros k Hk Hin. rewrite elem_of_list_In, in_concat in Hin. destruct Hin as (c & Hc & Hkc).
  apply elem_of_list_In in Hc. apply elem_of_list_In in Hkc. apply elem_of_list_fmap in Hc as ([b t] & -> & Hbt). simpl in Hkc.
  apply (r_E _ _ _ _ _ _ R) in Hk, Hkc. apply Hj.
  assert (j = t) as -> by (destruct (joins_ends _ _ _ _ _ _ Hk Hkc); naive_solver).
  apply elem_of_list_fmap. by exists (b, t).
Qed.

Lemma obs_visit_edges i : live_node m i →
  ∃ ks, visit_edges g i = Ok ks ∧ NoDup ks ∧ (∀ k, k ∈ ks ↔ incident m k i).
Proof.
  intros [[x nc] Hi]. destruct Hinv as (N & E & LA & R).
  destruct (grep_node_plain _ _ _ _ _ _ _ _ R Hi) as (h & nx & He & Hc).
  unfold visit_edges. rewrite (fl_get_elem _ _ _ He). simpl.
  rewrite (collect_N _ _ _ _ _ _ _ _ R Hi He). simpl.
  rewrite (visit_edges_fold N E LA i (N i) R) by done. eexists. split; [done|]. split.
  - eapply NoDup_concat_E; [done|apply (r_Nnd _ _ _ _ _ _ R)].
  - intros k. rewrite elem_of_list_In, in_concat. setoid_rewrite <- elem_of_list_In. split.
    + intros (c & Hc' & Hk). apply elem_of_list_fmap in Hc' as ([a j] & -> & Hin). exists j.
      by apply (r_E _ _ _ _ _ _ R).
    + intros [j Hj]. assert (Hn : adjacent m i j) by (by exists k).
      apply (r_N_iff _ _ _ _ _ R) in Hn. apply elem_of_list_fmap in Hn as ([a j'] & -> & Hin).
      exists (E i j'). split; [|by apply (r_E _ _ _ _ _ _ R)].
      apply elem_of_list_fmap. by exists (a, j').
Qed.

Lemma obs_visit_neighbors i : live_node m i →
  ∃ js xs, visit_neighbors g i = Ok xs ∧ NoDup js ∧ (∀ j, j ∈ js ↔ adjacent m i j) ∧
    Forall2 (λ j x, ∃ nc, mg_nodes m !! j = Some (x, nc)) js xs.
Proof.
  intros [[x nc] Hi]. destruct Hinv as (N & E & LA & R).
  destruct (grep_node_plain _ _ _ _ _ _ _ _ R Hi) as (h & nx & He & Hc).
  unfold visit_neighbors. rewrite (fl_get_elem _ _ _ He). simpl.
  rewrite (collect_N _ _ _ _ _ _ _ _ R Hi He). simpl.
  exists (N i).*2.
  assert (Hf : ∀ L, (∀ p, p ∈ L → p ∈ N i) → ∃ xs,
    foldr (λ a acc,
      ae ← fl_get (g_adjs g) (Some a);
      ne ← fl_get (g_nodes g) (a_node ae.1);
      match n_ent ne.1 with
      | None => AssertFail
      | Some x => r ← acc; Ok (x :: r)
      end) (Ok []) L.*1 = Ok xs ∧ Forall2 (λ j x, ∃ nc, mg_nodes m !! j = Some (x, nc)) L.*2 xs).
  { induction L as [|[a j] L IH]; intros HL; [eexists; split; [done|constructor]|].
    destruct IH as (xs & Hxs & HF); [set_solver|].
    destruct (r_adj _ _ _ _ _ _ R i a j) as (anx & Hae & _ & [[y ncy] Hj]); [apply HL; set_solver|].
    destruct (grep_node_plain _ _ _ _ _ _ _ _ R Hj) as (hj & nxj & Hej & _).
    simpl. rewrite (fl_get_elem _ _ _ Hae). simpl. rewrite (fl_get_elem _ _ _ Hej). simpl.
    setoid_rewrite Hxs. simpl. eexists. split; [done|]. constructor; eauto. }
  destruct (Hf (N i)) as (xs & Hxs & HF); [done|].
  exists xs. split_and!; [done|apply (r_Nnd _ _ _ _ _ _ R)| |done].
  intros j. by eapply r_N_iff.
Qed.
End observers.
