(** The entity graph of the island manager holds its bodies and edges. *)
From Coq Require Import ZArith.
From Verif Require Import Outcome GraphSpec GraphProofs GraphHist GraphWalk GraphMain IslModel IslSpec IslBase IslInv.

Record rel (s : sgraph) (m : mgraph) (w : world) : Prop := {
  rl_hist : hist false (w_graph w) m;
  rl_node : ∀ x i, w_node w !! x = Some i ↔ ∃ b, mg_nodes m !! i = Some (x, b);
  rl_kind : ∀ i x b, mg_nodes m !! i = Some (x, b) → sg_nodes s !! x = Some (negb b);
  rl_live : ∀ x, is_Some (sg_nodes s !! x) → is_Some (w_node w !! x);
  rl_edge : ∀ k e, w_edge w !! k = Some e ↔ ∃ i j, mg_edges m !! e = Some (k, i, j);
  rl_ends : ∀ e k i j, mg_edges m !! e = Some (k, i, j) →
    ∃ a b, sg_edges s !! k = Some (a, b) ∧ w_node w !! a = Some i ∧ w_node w !! b = Some j;
  rl_elive : ∀ k, is_edge s k → is_Some (w_edge w !! k);
  rl_proc : ∀ x, x ∈ w_proc w ↔ procedural s x
}.

Section rel.
Context (s : sgraph) (m : mgraph) (w : world) (R : rel s m w).

Lemma rel_node_inj x y i : w_node w !! x = Some i → w_node w !! y = Some i → x = y.
Proof. intros [b H]%(rl_node _ _ _ R) [b' H']%(rl_node _ _ _ R). congruence. Qed.
Lemma rel_edge_inj x y i : w_edge w !! x = Some i → w_edge w !! y = Some i → x = y.
Proof. intros (a & b & H)%(rl_edge _ _ _ R) (a' & b' & H')%(rl_edge _ _ _ R). congruence. Qed.
Lemma rel_node_live x i : w_node w !! x = Some i → is_Some (sg_nodes s !! x).
Proof. intros [b H]%(rl_node _ _ _ R). apply (rl_kind _ _ _ R) in H. by eexists. Qed.
Lemma rel_edge_live k e : w_edge w !! k = Some e → is_edge s k.
Proof. intros (i & j & H)%(rl_edge _ _ _ R). apply (rl_ends _ _ _ R) in H as (a & b & H & _). by eexists. Qed.
Lemma rel_live i : live_node m i ↔ ∃ x, w_node w !! x = Some i.
Proof.
  split.
  - intros [[x b] H]. exists x. apply (rl_node _ _ _ R). eauto.
  - intros [x [b H]%(rl_node _ _ _ R)]. by eexists.
Qed.
Lemma rel_procedural x i : w_node w !! x = Some i → (procedural s x ↔ mg_nodes m !! i = Some (x, false)).
Proof.
  intros [b H]%(rl_node _ _ _ R). pose proof (rl_kind _ _ _ R _ _ _ H) as Hk. unfold procedural. rewrite H, Hk.
  destruct b; naive_solver.
Qed.
Lemma rel_anchored x i : w_node w !! x = Some i → (anchored s x ↔ mg_nodes m !! i = Some (x, true)).
Proof.
  intros [b H]%(rl_node _ _ _ R). pose proof (rl_kind _ _ _ R _ _ _ H) as Hk. unfold anchored. rewrite H, Hk.
  destruct b; naive_solver.
Qed.
Lemma rel_connecting i : connecting m i ↔ ∃ x, w_node w !! x = Some i ∧ procedural s x.
Proof.
  split.
  - intros [x H]. assert (Hx : w_node w !! x = Some i) by (apply (rl_node _ _ _ R); eauto).
    exists x. split; [done|]. by apply (rel_procedural x i).
  - intros (x & Hx & Hp). exists x. by apply rel_procedural.
Qed.
Lemma rel_connecting' x i : w_node w !! x = Some i → (connecting m i ↔ procedural s x).
Proof.
  intros Hx. rewrite rel_connecting. split; [|by eauto]. intros (y & Hy & Hp). by rewrite (rel_node_inj x y i).
Qed.
Lemma rel_joins k e i j x y : w_edge w !! k = Some e → w_node w !! x = Some i → w_node w !! y = Some j →
  (joins m e i j ↔ (sg_edges s !! k = Some (x, y) ∨ sg_edges s !! k = Some (y, x))).
Proof.
  intros (a & b & He)%(rl_edge _ _ _ R) Hx Hy.
  destruct (rl_ends _ _ _ R _ _ _ _ He) as (p & q & Hk & Hp & Hq). unfold joins. rewrite He, Hk. split.
  - intros [z [H|H]]; simplify_eq; [left|right]; f_equal; f_equal; by eapply rel_node_inj.
  - intros [H|H]; simplify_eq; exists k; auto.
Qed.
Lemma rel_incident k e x i : w_edge w !! k = Some e → w_node w !! x = Some i → (incident m e i ↔ ends s k x).
Proof.
  intros Hk Hx. pose proof Hk as Hk'. apply (rl_edge _ _ _ R) in Hk' as (a & b & He).
  destruct (rl_ends _ _ _ R _ _ _ _ He) as (p & q & Hs & Hp & Hq).
  unfold incident, ends. split.
  - intros [j Hj]. assert (∃ y, w_node w !! y = Some j) as [y Hy].
    { destruct Hj as [z [Hz|Hz]]; rewrite He in Hz; simplify_eq; eauto. }
    exists y. by eapply rel_joins.
  - intros [y Hy]. assert (∃ j, w_node w !! y = Some j) as [j Hj].
    { destruct Hy as [Hy|Hy]; rewrite Hs in Hy; simplify_eq; eauto. }
    exists j. by eapply rel_joins.
Qed.
Lemma rel_adjacent x y i j : w_node w !! x = Some i → w_node w !! y = Some j → (adjacent m i j ↔ linked s x y).
Proof.
  intros Hx Hy. unfold adjacent, linked. split.
  - intros [e He]. assert (∃ k, w_edge w !! k = Some e) as [k Hk].
    { destruct He as [z [Hz|Hz]]; exists z; apply (rl_edge _ _ _ R); eauto. }
    exists k. by eapply rel_joins.
  - intros [k Hk]. destruct (rl_elive _ _ _ R k) as [e He]; [destruct Hk; by eexists|].
    exists e. by eapply rel_joins.
Qed.
Lemma rel_adjacent_ent x i j : w_node w !! x = Some i → adjacent m i j → ∃ y, w_node w !! y = Some j ∧ linked s x y.
Proof.
  intros Hx Ha. assert (∃ y, w_node w !! y = Some j) as [y Hy].
  { destruct Ha as [e [z [Hz|Hz]]]; apply (rl_ends _ _ _ R) in Hz as (a & b & _ & H1 & H2); eauto. }
  exists y. split; [done|]. by eapply rel_adjacent.
Qed.
Lemma rel_incident_ent e i : incident m e i → ∃ k, w_edge w !! k = Some e.
Proof. intros [j [z [Hz|Hz]]]; exists z; apply (rl_edge _ _ _ R); eauto. Qed.

Lemma rel_wf : wf s.
Proof.
  intros k x [y Hy]. destruct (rl_elive _ _ _ R k) as [e He]; [destruct Hy; by eexists|].
  apply (rl_edge _ _ _ R) in He as (i & j & He). apply (rl_ends _ _ _ R) in He as (a & b & Hk & Ha & Hb).
  destruct Hy as [Hy|Hy]; rewrite Hy in Hk; simplify_eq; by eapply rel_node_live.
Qed.
Lemma rel_obs : observes (w_graph w) m.
Proof. by destruct (graph_refines_main _ _ _ (rl_hist _ _ _ R)). Qed.
Lemma rel_node_entity x i : w_node w !! x = Some i → node_entity (w_graph w) i = Ok x.
Proof. intros [b H]%(rl_node _ _ _ R). by destruct (ob_node _ _ rel_obs _ _ _ H). Qed.
Lemma rel_edge_entity k e : w_edge w !! k = Some e → edge_entity (w_graph w) e = Ok k.
Proof. intros (i & j & H)%(rl_edge _ _ _ R). by destruct (ob_edge _ _ rel_obs _ _ _ _ H). Qed.
Lemma rel_edge_ends k e : w_edge w !! k = Some e → ∃ a b, sg_edges s !! k = Some (a, b) ∧
  edge_node_entities (w_graph w) e = Ok (Some a, Some b).
Proof.
  intros (i & j & H)%(rl_edge _ _ _ R). destruct (ob_edge _ _ rel_obs _ _ _ _ H) as (_ & _ & ->).
  destruct (rl_ends _ _ _ R _ _ _ _ H) as (a & b & Hk & [ba Ha]%(rl_node _ _ _ R) & [bb Hb]%(rl_node _ _ _ R)).
  exists a, b. split; [done|]. by rewrite Ha, Hb.
Qed.
Lemma rel_visit_edges x i : w_node w !! x = Some i →
  ∃ es, visit_edges (w_graph w) i = Ok es ∧ NoDup es ∧ ∀ e, e ∈ es ↔ ∃ k, w_edge w !! k = Some e ∧ ends s k x.
Proof.
  intros Hx. destruct (ob_visit_edges _ _ rel_obs i) as (es & -> & Hnd & Hes).
  { apply rel_live. eauto. }
  exists es. split_and!; [done|done|]. intros e. rewrite Hes. split.
  - intros Hi. destruct (rel_incident_ent e i Hi) as [k Hk]. exists k. split; [done|]. by eapply rel_incident.
  - intros (k & Hk & He). by eapply rel_incident.
Qed.
(** A path of the graph is a chain of procedural bodies *)
Lemma rel_rpath_ent ok x i j : w_node w !! x = Some i → rpath m ok i j → ∃ y, w_node w !! y = Some j.
Proof.
  intros Hx. induction 1 as [|j k H [y Hy] Hc Ha Hok]; [eauto|].
  destruct (rel_adjacent_ent y j k Hy Ha) as (z & Hz & _). eauto.
Qed.
Lemma rel_cpath x y i j : w_node w !! x = Some i → w_node w !! y = Some j → (cpath m i j ↔ pconn s x y).
Proof.
  intros Hx Hy. split.
  - intros H. revert y Hy. induction H as [Hc|j k H IH Ha Hc]; intros y Hy.
    + rewrite (rel_node_inj y x i) by done. constructor. by apply (rel_connecting' x i).
    + assert (connecting m j) as (z & Hz & Hp)%rel_connecting by (by destruct H).
      apply pc_step with z; [by apply IH| |].
      * by eapply (rel_adjacent z y).
      * by apply (rel_connecting' y k).
  - intros H. revert j Hy. induction H as [Hp|y z H IH Hl Hp]; intros j Hy.
    + assert (i = j) as -> by congruence. constructor. by apply (rel_connecting' x j).
    + assert (is_Some (sg_nodes s !! y)) as [k Hk]%(rl_live _ _ _ R).
      { apply procedural_node. by destruct H. }
      apply cp_step with k; [by apply IH| |].
      * by eapply (rel_adjacent y z).
      * by apply (rel_connecting' z j).
Qed.
End rel.

Lemma rel_same s m w w' :
  rel s m w → w_graph w' = w_graph w → w_node w' = w_node w → w_edge w' = w_edge w → w_proc w' = w_proc w → rel s m w'.
Proof. intros [] H1 H2 H3 H4. split; rewrite ?H1, ?H2, ?H3, ?H4; auto. Qed.
