(** Property theorems about entity_graph (C01, C03, C04, C05, C06). *)
From Verif Require Import Outcome FreeListModel GraphModel GraphSpec GraphHist GraphMain.

(** C01.  Along every history of legal calls the graph answers every observer as
    the abstract multigraph does, and every legal call is accepted. *)
Theorem C01_entity_graph_refines_multigraph :
  ∀ c g m, hist c g m →
  observes g m ∧
  ∀ o, legal m o → ∃ g' r, gstep g o = Ok (g', r) ∧ fresh_result m o r ∧
    hist (c || match o with MClear => true | _ => false end) g' (mnext m o r).
Proof. exact graph_refines_main. Qed.
Print Assumptions C01_entity_graph_refines_multigraph.

(** The exclusion of a second self-loop in [legal] is necessary. *)
Theorem C01_second_self_loop_refuted :
  ∃ g, run [MInsertNode 7 false; MInsertEdge 8 0 0] = Ok g ∧ gstep g (MInsertEdge 9 0 0) = AssertFail.
Proof. exact self_loop_witness. Qed.
Print Assumptions C01_second_self_loop_refuted.

(** C03.  The list of components, as entities, comes from a decomposition of the
    index graph. *)
Theorem C03_connected_components :
  ∀ g m, hist false g m → (∃ i, connecting m i) →
  ∃ cs, connected_components g =
      Ok (map (λ c, (map (node_ent m) c.1, map (edge_ent m) c.2)) cs) ∧
    is_decomposition m (λ _, True) (λ _, True) cs ∧
    (∀ c ns es, cs !! c = Some (ns, es) →
       (∀ i, i ∈ ns → live_node m i) ∧ (∀ k, k ∈ es → is_Some (mg_edges m !! k))).
Proof. exact components_main. Qed.
Print Assumptions C03_connected_components.

(** What a decomposition means: sharing a component is path connectivity, *)
Theorem C03_share_iff_path :
  ∀ m cs i j, is_decomposition m (λ _, True) (λ _, True) cs → connecting m i → connecting m j →
  (∃ c ns es, cs !! c = Some (ns, es) ∧ i ∈ ns ∧ j ∈ ns) ↔ cpath m i j.
Proof. exact dc_share. Qed.
Print Assumptions C03_share_iff_path.

(** an edge is in one component only, *)
Theorem C03_edge_once :
  ∀ m ok start cs, is_decomposition m ok start cs →
  ∀ c c' ns es ns' es' k,
  cs !! c = Some (ns, es) → cs !! c' = Some (ns', es') → k ∈ es → k ∈ es' → c = c'.
Proof. exact dc_edge_once. Qed.
Print Assumptions C03_edge_once.

(** and a non-connecting node is in the components of its connecting neighbours. *)
Theorem C03_non_connecting :
  ∀ m ok start cs, is_decomposition m ok start cs →
  ∀ c ns es i, cs !! c = Some (ns, es) → non_connecting m i →
  i ∈ ns ↔ ok i ∧ ∃ n, n ∈ ns ∧ connecting m n ∧ adjacent m n i.
Proof. exact dc_non_connecting. Qed.
Print Assumptions C03_non_connecting.

Theorem C03_no_connecting_node :
  ∀ g m, hist false g m → (∀ i, ¬ connecting m i) → connected_components g = Ok [([], [])].
Proof. exact components_none_main. Qed.
Print Assumptions C03_no_connecting_node.

(** C04 *)
Theorem C04_is_single_connected_component :
  ∀ g m, hist false g m → mg_nodes m ≠ ∅ →
  ∃ b, is_single_connected_component g = Ok b ∧
    (b = true ↔ ∀ i j, connecting m i → connecting m j → cpath m i j).
Proof. exact is_single_main. Qed.
Print Assumptions C04_is_single_connected_component.

(** C05 *)
Theorem C05_traverse :
  ∀ c g m s, hist c g m → live_node m s →
  ∃ ns es, traverse g s = Ok (ns, es) ∧ NoDup ns ∧ NoDup es ∧
    (∀ i, i ∈ ns ↔ rpath m (λ _, True) s i) ∧
    (∀ k, k ∈ es ↔ ∃ n, n ∈ ns ∧ connecting m n ∧ incident m k n).
Proof. exact traverse_main. Qed.
Print Assumptions C05_traverse.

Theorem C05_reach :
  ∀ c g m should starts, hist c g m → starts ≠ [] → (∀ s, s ∈ starts → connecting m s) →
  ∃ cs, reach g should starts = Ok cs ∧
    is_decomposition m (λ j, should j = true) (λ s, s ∈ starts) cs.
Proof. exact reach_main. Qed.
Print Assumptions C05_reach.

(** C06 *)
Theorem C06_clear_empties :
  ∀ c g m, hist c g m →
  hist true (g_clear g) mg_empty ∧ num_nodes (g_clear g) = 0%Z ∧ num_edges (g_clear g) = 0%Z.
Proof. exact clear_main. Qed.
Print Assumptions C06_clear_empties.

Theorem C06_clear_leaves_ghosts :
  ∀ g m i cs, hist false g m → connecting m i → connected_components (g_clear g) = Ok cs →
  ∃ x ns es r j, cs = (Some x :: ns, es) :: r ∧ mg_nodes m !! j = Some (x, false).
Proof. exact clear_ghost_main. Qed.
Print Assumptions C06_clear_leaves_ghosts.

Theorem C06_clear_is_not_fresh_refuted :
  ∃ g, run [MInsertNode 7 false; MClear] = Ok g ∧ num_nodes g = 0%Z ∧
    connected_components g = Ok [([Some 7], [])] ∧
    connected_components g_empty = Ok [([], [])].
Proof. exact clear_ghost_witness. Qed.
Print Assumptions C06_clear_is_not_fresh_refuted.

(** ** A concrete history

    Five nodes 20..24 (24 non-connecting), edges 0-1, 0-1 again, 1-4, 2-4, then
    the removal of one of the parallel edges and of node 3. *)
Definition case_ops : list mop :=
  [MInsertNode 20 false; MInsertNode 21 false; MInsertNode 22 false; MInsertNode 23 false;
   MInsertNode 24 true; MInsertEdge 30 0 1; MInsertEdge 31 1 0; MInsertEdge 32 1 4;
   MInsertEdge 33 2 4; MRemoveEdge 0; MRemoveNode 3].

Example case_hist : ∃ g m, hist false g m ∧
  connecting m 0 ∧ connecting m 2 ∧ non_connecting m 4 ∧ mg_nodes m ≠ ∅ ∧
  connected_components g = Ok [([Some 20; Some 21; Some 24], [Some 31; Some 32]); ([Some 22; Some 24], [Some 33])] ∧
  is_single_connected_component g = Ok false ∧
  traverse g 0 = Ok ([0; 1; 4], [1; 2]) ∧
  reach g (λ _, true) [1; 0; 2] = Ok [([1; 0; 4], [2; 1]); ([2; 4], [3])].
Proof.
  destruct (run_check case_ops g_empty mg_empty) as [[g m]|] eqn:Hr; [|vm_compute in Hr; done].
  exists g, m. split; [eapply run_check_sound; [apply hist_init| |exact Hr]; done|].
  vm_compute in Hr. injection Hr as <- <-.
  split; [by exists 20|]. split; [by exists 22|]. split; [by exists 24|]. split; [done|].
  split_and!; vm_compute; reflexivity.
Qed.
