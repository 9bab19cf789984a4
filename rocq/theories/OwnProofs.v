(** Proofs about the destruction of entities by client packets. *)
From Verif Require Import Outcome GraphModel GraphSpec GraphHist GraphMain MapModel OwnModel OwnSpec.

Lemma is_node_fun m i e e' : is_node m i e → is_node m i e' → e = e'.
Proof. intros [n Hn] [n' Hn']. congruence. Qed.
Lemma is_edge_fun m k e e' : is_edge m k e → is_edge m k e' → e = e'.
Proof. intros (i & j & H1) (i' & j' & H2). congruence. Qed.
Lemma wok_node' w m e i : wok w m → w_node w !! e = Some i ↔ is_node m i e.
Proof. intros Hw. apply (wok_node _ _ Hw). Qed.
Lemma wok_edge' w m e k : wok w m → w_edge w !! e = Some k ↔ is_edge m k e.
Proof. intros Hw. apply (wok_edge _ _ Hw). Qed.
Lemma incident_is_edge m k i : incident m k i → ∃ x, is_edge m k x.
Proof. intros (j & x & [Hk|Hk]); exists x; unfold is_edge; eauto. Qed.

Lemma owner_of w c e : w_owner w e = Some (Some c) ↔ owns w c e.
Proof.
  unfold w_owner, owns. destruct (w_comps w !! (TOwner, e)) as [[|[o|] r]|]; simpl; split;
    try (by intros [=]); try (intros [? [=]]); subst; eauto.
  intros [= ->]. eauto.
Qed.
Lemma owned_by_spec w c e : owned_by w c e = true ↔ owns w c e.
Proof. unfold owned_by. rewrite bool_decide_eq_true. apply owner_of. Qed.

(** ** Dropping entities *)
Lemma drop_valid w e x : x ∈ w_valid (w_drop w e) ↔ x ∈ w_valid w ∧ x ≠ e.
Proof. simpl. set_solver. Qed.
Lemma drop_comps w e t x v : w_comps (w_drop w e) !! (t, x) = Some v ↔ w_comps w !! (t, x) = Some v ∧ x ≠ e.
Proof. simpl. rewrite map_filter_lookup_Some. done. Qed.
Lemma drop_node w e x i : w_node (w_drop w e) !! x = Some i ↔ w_node w !! x = Some i ∧ x ≠ e.
Proof. simpl. rewrite lookup_delete_Some. naive_solver. Qed.
Lemma drop_edge w e x k : w_edge (w_drop w e) !! x = Some k ↔ w_edge w !! x = Some k ∧ x ≠ e.
Proof. simpl. rewrite lookup_delete_Some. naive_solver. Qed.

Lemma edge_ents_spec g m ks w :
  observes g m → NoDup ks →
  (∀ k k' x, k ∈ ks → k' ∈ ks → is_edge m k x → is_edge m k' x → k = k') →
  (∀ k, k ∈ ks → ∃ x, is_edge m k x ∧ x ∈ w_valid w) →
  ∃ w1, destroy_edge_ents g ks w = Ok w1 ∧ w_graph w1 = w_graph w ∧ w_next w1 = w_next w ∧
    let gone x := ∃ k, k ∈ ks ∧ is_edge m k x in
    (∀ x, x ∈ w_valid w1 ↔ x ∈ w_valid w ∧ ¬ gone x) ∧
    (∀ t x v, w_comps w1 !! (t, x) = Some v ↔ w_comps w !! (t, x) = Some v ∧ ¬ gone x) ∧
    (∀ x i, w_node w1 !! x = Some i ↔ w_node w !! x = Some i ∧ ¬ gone x) ∧
    (∀ x k, w_edge w1 !! x = Some k ↔ w_edge w !! x = Some k ∧ ¬ gone x).
Proof.
  intros Ob. unfold destroy_edge_ents. revert w. induction ks as [|k ks IH]; intros w Hnd Hinj Hks; simpl.
  { exists w. split_and!; try done; intros; split; try naive_solver; intros ?; split; try done;
      intros (? & Hin & _); by apply elem_of_nil in Hin. }
  apply NoDup_cons in Hnd as [Hk Hnd].
  destruct (Hks k) as (x0 & (a & b & Hx0) & Hv0); [left|].
  destruct (ob_edge _ _ Ob _ _ _ _ Hx0) as (-> & _). simpl. rewrite bool_decide_true by done. simpl.
  destruct (IH (w_drop w x0)) as (w1 & Hw1 & Hg & Hn & Hv & Hc & Hno & Hed); [done| | |].
  { intros. eapply Hinj; try done; by right. }
  { intros k' Hk'. destruct (Hks k') as (x' & Hx' & Hv'); [by right|]. exists x'. split; [done|].
    apply drop_valid. split; [done|]. intros ->. assert (k' = k) as ->; [|done].
    eapply Hinj; [by right|left|exact Hx'|by eexists _, _]. }
  exists w1. split; [done|]. split; [done|]. split; [done|].
  assert (Hgone : ∀ x, (∃ k', k' ∈ k :: ks ∧ is_edge m k' x) ↔ x = x0 ∨ ∃ k', k' ∈ ks ∧ is_edge m k' x).
  { intros x. split.
    - intros (k' & [->|Hin]%elem_of_cons & Hx); [|right; eauto]. left. eapply is_edge_fun; [exact Hx|by eexists _, _].
    - intros [->|(k' & Hin & Hx)]; [exists k; split; [left|by eexists _, _]|]. exists k'. split; [by right|done]. }
  split_and!; intros; rewrite Hgone.
  - rewrite Hv, drop_valid. tauto.
  - rewrite Hc, drop_comps. tauto.
  - rewrite Hno, drop_node. tauto.
  - rewrite Hed, drop_edge. tauto.
Qed.

(** ** registry.destroy *)
(** What destroying [e] does to a world with graph [m]. *)
Record destroyed (w : world) (m : mgraph) (e : nat) (w' : world) (m' : mgraph) : Prop := {
  ds_wok : wok w' m';
  ds_next : w_next w' = w_next w;
  ds_valid : ∀ x, x ∈ w_valid w' ↔ x ∈ w_valid w ∧ x ≠ e ∧ ¬ attached m x e;
  ds_comps : ∀ t x v, w_comps w' !! (t, x) = Some v ↔ w_comps w !! (t, x) = Some v ∧ x ∈ w_valid w';
  ds_nodes : ∀ i v, mg_nodes m' !! i = Some v ↔ mg_nodes m !! i = Some v ∧ v.1 ∈ w_valid w';
  ds_edges : ∀ k v, mg_edges m' !! k = Some v ↔ mg_edges m !! k = Some v ∧ v.1.1 ∈ w_valid w' }.

Lemma gstep_remove_all g i g' r : gstep g (MRemoveAllEdges i) = Ok (g', r) → remove_all_edges g i = Ok g'.
Proof. simpl. intros (g1 & H1 & H2)%bind_ok. by injection H2 as ->. Qed.
Lemma gstep_remove_node g i g' r : gstep g (MRemoveNode i) = Ok (g', r) → remove_node g i = Ok g'.
Proof. simpl. intros (g1 & H1 & H2)%bind_ok. by injection H2 as ->. Qed.
Lemma gstep_remove_edge g k g' r : gstep g (MRemoveEdge k) = Ok (g', r) → remove_edge g k = Ok g'.
Proof. simpl. intros (g1 & H1 & H2)%bind_ok. by injection H2 as ->. Qed.

Lemma w_destroy_spec w m e :
  wok w m → e ∈ w_valid w → ∃ w' m', w_destroy w e = Ok w' ∧ destroyed w m e w' m'.
Proof.
  intros Hw He. unfold w_destroy. rewrite bool_decide_true by done. simpl.
  destruct (wok_hist _ _ Hw) as [cl Hh]. destruct (graph_refines_main _ _ _ Hh) as [Ob Hst].
  destruct (w_node w !! e) as [i|] eqn:Hn.
  - assert (Hi : is_node m i e) by (by apply (wok_node' w m)).
    assert (Hlive : live_node m i) by (destruct Hi; by eexists).
    destruct (ob_visit_edges _ _ Ob i Hlive) as (ks & Hks & Hnd & Hin). rewrite Hks. simpl.
    destruct (edge_ents_spec (w_graph w) m ks w Ob Hnd) as (w1 & Hw1 & Hg & Hnx & Hv & Hc & Hno & Hed).
    { intros k k' x _ _ H1%(wok_edge' w m _ _ Hw) H2%(wok_edge' w m _ _ Hw). congruence. }
    { intros k Hk%Hin. destruct (incident_is_edge _ _ _ Hk) as [x Hx]. exists x. split; [done|].
      eapply (wok_edge_valid _ _ Hw). by apply (wok_edge' w m). }
    assert (Hgone : ∀ x, (∃ k, k ∈ ks ∧ is_edge m k x) ↔ attached m x e).
    { intros x. split.
      - intros (k & Hk%Hin & Hx). by exists k, i.
      - intros (k & i' & Hx & Hi' & Hinc). exists k. split; [|done]. apply Hin.
        assert (i' = i) as ->; [|done]. apply (wok_node' w m _ _ Hw) in Hi'. congruence. }
    setoid_rewrite Hgone in Hv. setoid_rewrite Hgone in Hc. setoid_rewrite Hgone in Hno. setoid_rewrite Hgone in Hed.
    rewrite Hw1. simpl. rewrite Hg.
    destruct (Hst (MRemoveAllEdges i) Hlive) as (g1 & r1 & Hs1 & Hf1 & Hh1). simpl in Hf1. subst r1.
    rewrite (gstep_remove_all _ _ _ _ Hs1). simpl.
    rewrite orb_false_r in Hh1. simpl in Hh1.
    destruct (graph_refines_main _ _ _ Hh1) as [Ob1 Hst1].
    set (m1 := MGraph (mg_nodes m) (filter (λ ke, ke.2.1.2 ≠ i ∧ ke.2.2 ≠ i) (mg_edges m))) in *.
    destruct (Hst1 (MRemoveNode i)) as (g2 & r2 & Hs2 & Hf2 & Hh2).
    { split; [done|]. intros k (j & x & Hk). simpl in Hk.
      destruct Hk as [Hk|Hk]; apply map_filter_lookup_Some in Hk as [_ [? ?]]; simpl in *; done. }
    simpl in Hf2. subst r2. rewrite (gstep_remove_node _ _ _ _ Hs2). simpl.
    rewrite orb_false_r in Hh2. simpl in Hh2.
    assert (Hne : ¬ attached m e e).
    { intros (k & i' & He' & _). apply (wok_edge' w m _ _ Hw) in He'. by eapply (wok_disj _ _ Hw). }
    assert (w_edge w1 !! e = None) as ->.
    { destruct (w_edge w1 !! e) as [k|] eqn:E; [|done]. exfalso. apply Hed in E as [E _]. by eapply (wok_disj _ _ Hw). }
    simpl. eexists _, _. split; [done|].
    set (w' := w_drop (set_graph w1 g2) e) in *.
    assert (Hv' : ∀ x, x ∈ w_valid w' ↔ x ∈ w_valid w ∧ x ≠ e ∧ ¬ attached m x e).
    { intros x. unfold w'. rewrite drop_valid. simpl. rewrite Hv. tauto. }
    assert (Hc' : ∀ t x v, w_comps w' !! (t, x) = Some v ↔ w_comps w !! (t, x) = Some v ∧ x ∈ w_valid w').
    { intros t x v. rewrite Hv'. unfold w'. rewrite drop_comps. simpl. rewrite Hc.
      split; [|tauto]. intros [[H1 H2] H3]. split_and!; try done. eapply (wok_comp_valid _ _ Hw). by eexists. }
    assert (Hno' : ∀ x i, w_node w' !! x = Some i ↔ w_node w !! x = Some i ∧ x ∈ w_valid w').
    { intros x j. rewrite Hv'. unfold w'. rewrite drop_node. simpl. rewrite Hno.
      split; [|tauto]. intros [[H1 H2] H3]. split_and!; try done. by eapply (wok_node_valid _ _ Hw). }
    assert (Hed' : ∀ x i, w_edge w' !! x = Some i ↔ w_edge w !! x = Some i ∧ x ∈ w_valid w').
    { intros x j. rewrite Hv'. unfold w'. rewrite drop_edge. simpl. rewrite Hed.
      split; [|tauto]. intros [[H1 H2] H3]. split_and!; try done. by eapply (wok_edge_valid _ _ Hw). }
    assert (Hmn : ∀ j v, delete i (mg_nodes m) !! j = Some v ↔ mg_nodes m !! j = Some v ∧ v.1 ∈ w_valid w').
    { intros j [x nc]. rewrite lookup_delete_Some, Hv'. simpl. split.
      - intros [Hji Hj]. split; [done|]. assert (Hjx : is_node m j x) by by eexists.
        pose proof Hjx as Hjx2. apply (wok_node' w m _ _ Hw) in Hjx2.
        split_and!; [by eapply (wok_node_valid _ _ Hw)| |].
        + intros ->. congruence.
        + intros (k & i' & He' & _). apply (wok_edge' w m _ _ Hw) in He'. by eapply (wok_disj _ _ Hw).
      - intros (Hj & _ & Hx & _). split; [|done]. intros <-. apply Hx. eapply is_node_fun; [|exact Hi]. by eexists. }
    assert (Hme : ∀ k v, filter (λ ke, ke.2.1.2 ≠ i ∧ ke.2.2 ≠ i) (mg_edges m) !! k = Some v ↔
                         mg_edges m !! k = Some v ∧ v.1.1 ∈ w_valid w').
    { intros k [[x a] b]. rewrite map_filter_lookup_Some, Hv'. simpl. split.
      - intros [Hk [Ha Hb]]. split; [done|]. assert (Hkx : is_edge m k x) by by eexists _, _.
        pose proof Hkx as Hkx2. apply (wok_edge' w m _ _ Hw) in Hkx2.
        split_and!; [by eapply (wok_edge_valid _ _ Hw)| |].
        + intros ->. by eapply (wok_disj _ _ Hw).
        + intros (k' & i' & He' & Hi' & Hinc). apply (wok_edge' w m _ _ Hw) in He'. rewrite Hkx2 in He'.
          injection He' as <-. apply (wok_node' w m _ _ Hw) in Hi'. rewrite Hn in Hi'. injection Hi' as <-.
          destruct Hinc as (j & y & [Hj|Hj]); congruence.
      - intros (Hk & _ & _ & Ha). split; [done|].
        assert (¬ incident m k i). { intros Hinc. apply Ha. exists k, i. split_and!; try done. by eexists _, _. }
        split; intros ->; apply H; [exists b, x|exists a, x]; auto. }
    split.
    + split.
      * simpl. by eexists.
      * intros x j. rewrite Hno', (wok_node' w m _ _ Hw). simpl. unfold is_node.
        setoid_rewrite Hmn. simpl. naive_solver.
      * intros x k. rewrite Hed', (wok_edge' w m _ _ Hw). simpl. unfold is_edge.
        setoid_rewrite Hme. simpl. naive_solver.
      * intros x j k [H1 _]%Hno' [H2 _]%Hed'. by eapply (wok_disj _ _ Hw).
      * intros x j [_ ?]%Hno'. done.
      * intros x j [_ ?]%Hed'. done.
      * intros t x [v [_ Hx]%Hc']. done.
    + simpl. by rewrite Hnx.
    + exact Hv'.
    + exact Hc'.
    + exact Hmn.
    + exact Hme.
  - simpl.
    assert (Hna : ∀ x, ¬ attached m x e).
    { intros x (k & i & _ & Hi & _). apply (wok_node' w m _ _ Hw) in Hi. congruence. }
    destruct (w_edge w !! e) as [k|] eqn:Hk.
    + assert (Hke : is_edge m k e) by (by apply (wok_edge' w m)).
      destruct (Hst (MRemoveEdge k)) as (g1 & r1 & Hs1 & Hf1 & Hh1).
      { destruct Hke as (a & b & Hke). by eexists. }
      simpl in Hf1. subst r1. rewrite (gstep_remove_edge _ _ _ _ Hs1). simpl.
      rewrite orb_false_r in Hh1. simpl in Hh1. eexists _, _. split; [done|].
      set (w' := w_drop (set_graph w g1) e) in *.
      assert (Hv' : ∀ x, x ∈ w_valid w' ↔ x ∈ w_valid w ∧ x ≠ e ∧ ¬ attached m x e).
      { intros x. unfold w'. rewrite drop_valid. simpl. pose proof (Hna x). tauto. }
      assert (Hmn : ∀ j v, mg_nodes m !! j = Some v ↔ mg_nodes m !! j = Some v ∧ v.1 ∈ w_valid w').
      { intros j [x nc]. rewrite Hv'. simpl. split; [|by intros [? _]]. intros Hj. split; [done|].
        assert (Hjx : w_node w !! x = Some j) by (apply (wok_node' w m _ _ Hw); by eexists).
        split_and!; [by eapply (wok_node_valid _ _ Hw)| |done]. intros ->. congruence. }
      assert (Hme : ∀ k' v, delete k (mg_edges m) !! k' = Some v ↔ mg_edges m !! k' = Some v ∧ v.1.1 ∈ w_valid w').
      { intros k' [[x a] b]. rewrite lookup_delete_Some, Hv'. simpl. split.
        - intros [Hkk Hk']. split; [done|].
          assert (Hkx : w_edge w !! x = Some k') by (apply (wok_edge' w m _ _ Hw); by eexists _, _).
          split_and!; [by eapply (wok_edge_valid _ _ Hw)| |done]. intros ->. congruence.
        - intros (Hk' & _ & Hx & _). split; [|done]. intros <-. apply Hx. eapply is_edge_fun; [|exact Hke]. by eexists _, _. }
      split.
      * split.
        -- simpl. by eexists.
        -- intros x j. unfold w'. rewrite drop_node. simpl. rewrite (wok_node' w m _ _ Hw). unfold is_node.
           split; [by intros [? _]|]. intros Hj. split; [done|]. intros ->.
           assert (w_node w !! e = Some j) by (by apply (wok_node' w m _ _ Hw)). congruence.
        -- intros x k'. unfold w'. rewrite drop_edge. simpl. rewrite (wok_edge' w m _ _ Hw). unfold is_edge.
           split.
           ++ intros [(a & b & Hx) Hne]. exists a, b. apply Hme. split; [done|]. apply Hv'. cbn [fst]. split_and!; try done.
              eapply (wok_edge_valid _ _ Hw). apply (wok_edge' w m _ _ Hw). by eexists _, _.
           ++ intros (a & b & [Hx Hvx]%Hme). apply Hv' in Hvx as (_ & Hne & _). eauto.
        -- intros x j k' [H1 _]%drop_node [H2 _]%drop_edge. by eapply (wok_disj _ _ Hw).
        -- intros x j [H1 Hne]%drop_node. apply drop_valid. split; [|done]. by eapply (wok_node_valid _ _ Hw).
        -- intros x j [H1 Hne]%drop_edge. apply drop_valid. split; [|done]. by eapply (wok_edge_valid _ _ Hw).
        -- intros t x [v [H1 Hne]%drop_comps]. apply drop_valid. split; [|done]. eapply (wok_comp_valid _ _ Hw). by eexists.
      * done.
      * exact Hv'.
      * intros t x v. rewrite Hv'. unfold w'. rewrite drop_comps. simpl. split; [|tauto].
        intros [H1 Hne]. split_and!; try done. eapply (wok_comp_valid _ _ Hw). by eexists.
      * exact Hmn.
      * exact Hme.
    + simpl. exists (w_drop w e), m. split; [done|].
      assert (Hv' : ∀ x, x ∈ w_valid (w_drop w e) ↔ x ∈ w_valid w ∧ x ≠ e ∧ ¬ attached m x e).
      { intros x. rewrite drop_valid. pose proof (Hna x). tauto. }
      assert (Hmn : ∀ j v, mg_nodes m !! j = Some v ↔ mg_nodes m !! j = Some v ∧ v.1 ∈ w_valid (w_drop w e)).
      { intros j [x nc]. rewrite Hv'. simpl. split; [|by intros [? _]]. intros Hj. split; [done|].
        assert (Hjx : w_node w !! x = Some j) by (apply (wok_node' w m _ _ Hw); by eexists).
        split_and!; [by eapply (wok_node_valid _ _ Hw)| |done]. intros ->. congruence. }
      assert (Hme : ∀ k' v, mg_edges m !! k' = Some v ↔ mg_edges m !! k' = Some v ∧ v.1.1 ∈ w_valid (w_drop w e)).
      { intros k' [[x a] b]. rewrite Hv'. simpl. split; [|by intros [? _]]. intros Hk'. split; [done|].
        assert (Hkx : w_edge w !! x = Some k') by (apply (wok_edge' w m _ _ Hw); by eexists _, _).
        split_and!; [by eapply (wok_edge_valid _ _ Hw)| |done]. intros ->. congruence. }
      split; [|done|exact Hv'| |exact Hmn|exact Hme].
      * split.
        -- simpl. by eexists.
        -- intros x j. rewrite drop_node, (wok_node' w m _ _ Hw). unfold is_node.
           split; [by intros [? _]|]. intros Hj. split; [done|]. intros ->.
           assert (w_node w !! e = Some j) by (by apply (wok_node' w m _ _ Hw)). congruence.
        -- intros x j. rewrite drop_edge, (wok_edge' w m _ _ Hw). unfold is_edge.
           split; [by intros [? _]|]. intros Hj. split; [done|]. intros ->.
           assert (w_edge w !! e = Some j) by (by apply (wok_edge' w m _ _ Hw)). congruence.
        -- intros x j k' [H1 _]%drop_node [H2 _]%drop_edge. by eapply (wok_disj _ _ Hw).
        -- intros x j [H1 Hne]%drop_node. apply drop_valid. split; [|done]. by eapply (wok_node_valid _ _ Hw).
        -- intros x j [H1 Hne]%drop_edge. apply drop_valid. split; [|done]. by eapply (wok_edge_valid _ _ Hw).
        -- intros t x [v [H1 Hne]%drop_comps]. apply drop_valid. split; [|done]. eapply (wok_comp_valid _ _ Hw). by eexists.
      * intros t x v. rewrite Hv', drop_comps. split; [|tauto].
        intros [H1 Hne]. split_and!; try done. eapply (wok_comp_valid _ _ Hw). by eexists.
Qed.

(** ** Destroying a set of entities *)
(** [w'] is [w] without the entities satisfying [T] and the edges attached to them. *)
Record without (w : world) (m : mgraph) (T : nat → Prop) (w' : world) (m' : mgraph) : Prop := {
  wo_wok : wok w' m';
  wo_next : w_next w' = w_next w;
  wo_valid : ∀ x, x ∈ w_valid w' ↔ x ∈ w_valid w ∧ ¬ T x ∧ ¬ ∃ b, T b ∧ attached m x b;
  wo_comps : ∀ t x v, w_comps w' !! (t, x) = Some v ↔ w_comps w !! (t, x) = Some v ∧ x ∈ w_valid w';
  wo_nodes : ∀ i v, mg_nodes m' !! i = Some v ↔ mg_nodes m !! i = Some v ∧ v.1 ∈ w_valid w';
  wo_edges : ∀ k v, mg_edges m' !! k = Some v ↔ mg_edges m !! k = Some v ∧ v.1.1 ∈ w_valid w' }.

Lemma without_none w m T : wok w m → (∀ x, ¬ T x) → without w m T w m.
Proof.
  intros Hw HT. split; try done.
  - naive_solver.
  - intros t x v. split; [|by intros [? _]]. intros Hx. split; [done|]. eapply (wok_comp_valid _ _ Hw). by eexists.
  - intros i [x nc]. split; [|by intros [? _]]. intros Hx. split; [done|].
    eapply (wok_node_valid _ _ Hw). apply (wok_node' w m _ _ Hw). by eexists.
  - intros i [[x a] b]. split; [|by intros [? _]]. intros Hx. split; [done|].
    eapply (wok_edge_valid _ _ Hw). apply (wok_edge' w m _ _ Hw). by eexists _, _.
Qed.

Lemma without_attached w m T w' m' x b :
  without w m T w' m' → attached m' x b ↔ attached m x b ∧ x ∈ w_valid w' ∧ b ∈ w_valid w'.
Proof.
  intros HW. unfold attached, is_edge, is_node, incident, joins. setoid_rewrite (wo_nodes _ _ _ _ _ HW).
  setoid_rewrite (wo_edges _ _ _ _ _ HW). simpl. split.
  - intros (k & i & (a & c & Hx & Hvx) & (nc & Hb & Hvb) & (j & y & Hj)).
    split_and!; [|done|done]. exists k, i. split_and!; [by eexists _, _|by eexists|].
    exists j, y. destruct Hj as [[? _]|[? _]]; auto.
  - intros ((k & i & (a & c & Hx) & (nc & Hb) & (j & y & Hj)) & Hvx & Hvb).
    exists k, i. split_and!; [by eexists _, _|by eexists|]. exists j, x.
    destruct Hj as [Hj|Hj]; rewrite Hx in Hj; injection Hj as -> -> ->; rewrite Hx; auto.
Qed.

Lemma without_step w m T w1 m1 e w2 m2 :
  without w m T w1 m1 → e ∈ w_valid w1 → destroyed w1 m1 e w2 m2 →
  without w m (λ x, T x ∨ x = e) w2 m2.
Proof.
  intros HW He HD. split.
  - apply (ds_wok _ _ _ _ _ HD).
  - rewrite (ds_next _ _ _ _ _ HD). apply (wo_next _ _ _ _ _ HW).
  - intros x. rewrite (ds_valid _ _ _ _ _ HD), (without_attached _ _ _ _ _ _ _ HW).
    pose proof (wo_valid _ _ _ _ _ HW x) as Hx. split.
    + intros (Hv & Hne & Hna). pose proof Hv as Hv0. apply Hx in Hv as (Hv & HT & Hnb).
      split_and!; [done|tauto|]. intros (b & [Hb| ->] & Hat); [apply Hnb; eauto|]. apply Hna. done.
    + intros (Hv & HT & Hnb). assert (Hv1 : x ∈ w_valid w1).
      { apply Hx. split_and!; [done|tauto|]. intros (b & Hb & Hat). apply Hnb. exists b. auto. }
      split_and!; [done|intros ->; tauto|]. intros (Hat & _). apply Hnb. exists e. auto.
  - intros t x v. rewrite (ds_comps _ _ _ _ _ HD), (wo_comps _ _ _ _ _ HW).
    pose proof (ds_valid _ _ _ _ _ HD x). tauto.
  - intros i v. rewrite (ds_nodes _ _ _ _ _ HD), (wo_nodes _ _ _ _ _ HW).
    pose proof (ds_valid _ _ _ _ _ HD v.1). tauto.
  - intros i v. rewrite (ds_edges _ _ _ _ _ HD), (wo_edges _ _ _ _ _ HW).
    pose proof (ds_valid _ _ _ _ _ HD v.1.1). tauto.
Qed.

Lemma without_ext w m T T' w' m' :
  (∀ x, T x ↔ T' x) → without w m T w' m' → without w m T' w' m'.
Proof.
  intros HT HW. split; try apply HW. intros x. rewrite (wo_valid _ _ _ _ _ HW), HT.
  setoid_rewrite HT. done.
Qed.
(** An entity which is gone anyway may be added. *)
Lemma without_gone w m T w' m' e :
  without w m T w' m' → e ∉ w_valid w' → (∀ x, attached m x e → x ∈ w_valid w → x ∉ w_valid w') →
  e ∈ w_valid w → without w m (λ x, T x ∨ x = e) w' m'.
Proof.
  intros HW He Hat Hv. split; try apply HW. intros x. rewrite (wo_valid _ _ _ _ _ HW). split.
  - intros (Hx & HT & Hnb). assert (Hx' : x ∈ w_valid w') by (by apply HW).
    split_and!; [done|intros [?|<-]; [done|by apply He]|].
    intros (b & [Hb| ->] & Ha); [apply Hnb; eauto|]. by eapply Hat.
  - intros (Hx & HT & Hnb). split_and!; [done|tauto|]. intros (b & Hb & Ha). apply Hnb. exists b. auto.
Qed.

(** ** The destroy packet *)
Lemma without_owns w m T w' m' c e : without w m T w' m' → e ∈ w_valid w' → owns w' c e ↔ owns w c e.
Proof.
  intros HW He. unfold owns. setoid_rewrite (wo_comps _ _ _ _ _ HW). naive_solver.
Qed.
Lemma named_snoc w cl c rs r x :
  named_own w cl c (rs ++ [r]) x ↔
  named_own w cl c rs x ∨ (x ∈ w_valid w ∧ owns w c x ∧ em_map (cl_map cl) !! r = Some x).
Proof.
  unfold named_own. setoid_rewrite elem_of_app. setoid_rewrite elem_of_list_singleton. split.
  - intros (? & ? & r' & [?|<-] & ?); [left; eauto|right; eauto].
  - intros [(? & ? & r' & ? & ?)|(? & ? & ?)]; eauto 10.
Qed.
Lemma edge_no_attached w m x e k : wok w m → w_edge w !! e = Some k → ¬ attached m x e.
Proof. intros Hw He (k' & i & _ & Hi & _). apply (wok_node' w m _ _ Hw) in Hi. by eapply (wok_disj _ _ Hw). Qed.
(** Skipping an entity that is gone. *)
Lemma without_skip w m T w' m' e :
  wok w m → without w m T w' m' → e ∉ w_valid w' → e ∈ w_valid w → without w m (λ x, T x ∨ x = e) w' m'.
Proof.
  intros Hw HW He Hv. apply without_gone; try done.
  intros x Hat Hx Hx'. apply He. apply (wo_valid _ _ _ _ _ HW). split; [done|].
  apply (wo_valid _ _ _ _ _ HW) in Hx' as (_ & _ & Hn). split.
  - intros HT. apply Hn. eauto.
  - intros (b & _ & (k & i & Hk & _)). apply (wok_edge' w m _ _ Hw) in Hk. by eapply edge_no_attached.
Qed.

Lemma destroy_packet c rs w cl m :
  wok w m → (∀ e, owns w c e → e ∈ cl_owned cl) →
  ∃ w' cl' m', foldl (destroy_one c) (Ok (w, cl)) rs = Ok (w', cl') ∧
    without w m (named_own w cl c rs) w' m' ∧
    cl_owned cl' ⊆ cl_owned cl ∧ (∀ e, e ∈ cl_owned cl → e ∉ cl_owned cl' → e ∉ w_valid w') ∧
    (∀ r e, em_map (cl_map cl) !! r = Some e → em_map (cl_map cl') !! r = Some e ∨ e ∉ w_valid w') ∧
    (∀ r e, em_map (cl_map cl') !! r = Some e → em_map (cl_map cl) !! r = Some e) ∧
    cl_full cl' = cl_full cl ∧ cl_queue cl' = cl_queue cl.
Proof.
  intros Hw Ho. induction rs as [|r rs IH] using rev_ind.
  { exists w, cl, m. split; [done|]. split; [|naive_solver].
    apply without_none; [done|]. intros x (_ & _ & r & Hr & _). by apply elem_of_nil in Hr. }
  destruct IH as (w' & cl' & m' & Hf & HW & Hsub & Hgone & Hm1 & Hm2 & Hfu & Hq).
  rewrite foldl_app, Hf. cbn [foldl destroy_one mbind res_bind].
  (* nothing happens to an entity which is gone or foreign *)
  assert (Hskip : (∀ e, em_map (cl_map cl) !! r = Some e → e ∈ w_valid w → owns w c e → e ∉ w_valid w') →
    without w m (named_own w cl c (rs ++ [r])) w' m').
  { intros Hs. destruct (em_map (cl_map cl) !! r) as [e|] eqn:Er.
    - destruct (owned_by w c e && bool_decide (e ∈ w_valid w)) eqn:Eo.
      + apply andb_true_iff in Eo as [Eo%owned_by_spec Ev%bool_decide_eq_true].
        eapply without_ext; [|eapply (without_skip w m _ w' m' e); [done|exact HW|auto|done]].
        intros x. rewrite named_snoc, Er. naive_solver.
      + apply andb_false_iff in Eo. eapply without_ext; [|exact HW].
        intros x. rewrite named_snoc, Er. split; [auto|]. intros [?|(H1 & H2 & [= <-])]; [done|].
        apply owned_by_spec in H2. destruct Eo as [Eo|Eo%bool_decide_eq_false]; congruence.
    - eapply without_ext; [|exact HW]. intros x. rewrite named_snoc, Er. naive_solver. }
  destruct (em_map (cl_map cl') !! r) as [e|] eqn:Er'.
  - pose proof (Hm2 _ _ Er') as Er. destruct (bool_decide (e ∈ w_valid w') && owned_by w' c e) eqn:Eb.
    + apply andb_true_iff in Eb as [Ev%bool_decide_eq_true Eo%owned_by_spec].
      destruct (w_destroy_spec w' m' e (wo_wok _ _ _ _ _ HW) Ev) as (w2 & m2 & -> & HD). cbn [mbind res_bind].
      unfold em_erase. rewrite Er'. cbn [opt_res mbind res_bind].
      pose proof Eo as Eo'. apply (without_owns _ _ _ _ _ _ _ HW Ev) in Eo'.
      assert (Hin : e ∈ cl_owned cl').
      { destruct (decide (e ∈ cl_owned cl')); [done|]. exfalso. by eapply Hgone; eauto. }
      rewrite bool_decide_true by done. cbn [require_ mbind res_bind].
      eexists _, _, m2. split; [done|]. cbn [cl_owned cl_map cl_full cl_queue em_map].
      pose proof (ds_valid _ _ _ _ _ HD) as Hv2.
      split_and!; try done.
      * eapply without_ext; [|eapply without_step; [exact HW|exact Ev|exact HD]].
        intros x. rewrite named_snoc, Er. split; [|naive_solver]. intros [?| ->]; [auto|]. right. split_and!; try done.
        by apply HW in Ev as (? & _).
      * set_solver.
      * intros x Hx Hx'. rewrite Hv2. destruct (decide (x = e)) as [->|]; [tauto|].
        intros (Hxv & _). eapply Hgone; eauto. set_solver.
      * intros r0 e0 Hr0. rewrite Hv2. destruct (Hm1 _ _ Hr0) as [H1|H1]; [|tauto].
        destruct (decide (r0 = r)) as [->|Hne]; [right; intros (_ & H2 & _); congruence|].
        left. by rewrite lookup_delete_ne.
      * intros r0 e0 [_ Hr0]%lookup_delete_Some. auto.
    + eexists _, _, m'. split; [done|]. split_and!; try done. apply Hskip.
      intros e' He' Hv Hown Hv'. rewrite Er in He'. injection He' as <-.
      apply (without_owns _ _ _ _ _ _ _ HW Hv'), owned_by_spec in Hown.
      rewrite Hown, bool_decide_true in Eb by done. done.
  - eexists _, _, m'. split; [done|]. split_and!; try done. apply Hskip.
    intros e' He' Hv Hown Hv'. destruct (Hm1 _ _ He'); congruence.
Qed.

Lemma destroy_main s c cl m rs :
  wok (s_world s) m → s_clients s !! c = Some cl → (∀ e, owns (s_world s) c e → e ∈ cl_owned cl) →
  ∃ s' m', process_destroy s c rs = Ok s' ∧ wok (s_world s') m' ∧
    (∀ e, e ∈ w_valid (s_world s') ↔ e ∈ w_valid (s_world s) ∧
       ¬ named_own (s_world s) cl c rs e ∧
       ¬ ∃ b, named_own (s_world s) cl c rs b ∧ attached m e b) ∧
    (∀ e t, e ∈ w_valid (s_world s') → w_comps (s_world s') !! (t, e) = w_comps (s_world s) !! (t, e)) ∧
    (∀ c', c' ≠ c → s_clients s' !! c' = s_clients s !! c').
Proof.
  intros Hw Hc Ho. unfold process_destroy. rewrite Hc. cbn [opt_res mbind res_bind].
  destruct (destroy_packet c rs (s_world s) cl m Hw Ho) as (w' & cl' & m' & -> & HW & _).
  cbn [mbind res_bind]. eexists _, m'. split; [done|]. cbn [put_client s_world s_clients].
  split_and!; [apply HW|apply HW| |].
  - intros e t He. destruct (w_comps (s_world s) !! (t, e)) as [v|] eqn:E.
    + apply (wo_comps _ _ _ _ _ HW). done.
    + destruct (w_comps w' !! (t, e)) as [v|] eqn:E'; [|done].
      apply (wo_comps _ _ _ _ _ HW) in E' as [? _]. congruence.
  - intros c' Hne. by rewrite lookup_insert_ne.
Qed.

(** ** A client leaves *)
Lemma leave_fold (es : list nat) w m :
  wok w m →
  ∃ w' m', foldl (λ rw e, w ← rw; if bool_decide (e ∈ w_valid w) then w_destroy w e else Ok w) (Ok w) es = Ok w' ∧
    without w m (λ x, x ∈ es ∧ x ∈ w_valid w) w' m'.
Proof.
  intros Hw. induction es as [|e es IH] using rev_ind.
  { exists w, m. split; [done|]. apply without_none; [done|]. intros x [Hx _]. by apply elem_of_nil in Hx. }
  destruct IH as (w' & m' & Hf & HW). rewrite foldl_app, Hf. cbn [foldl mbind res_bind].
  assert (Hiff : ∀ x, x ∈ es ++ [e] ∧ x ∈ w_valid w ↔ (x ∈ es ∧ x ∈ w_valid w) ∨ (x = e ∧ x ∈ w_valid w)).
  { intros x. rewrite elem_of_app, elem_of_list_singleton. tauto. }
  case_bool_decide as Ev.
  - destruct (w_destroy_spec w' m' e (wo_wok _ _ _ _ _ HW) Ev) as (w2 & m2 & -> & HD).
    exists w2, m2. split; [done|]. eapply without_ext; [|eapply without_step; [exact HW|exact Ev|exact HD]].
    intros x. cbn beta. rewrite Hiff. apply HW in Ev as (? & _). naive_solver.
  - exists w', m'. split; [done|]. destruct (decide (e ∈ w_valid w)) as [Hv|Hv].
    + eapply without_ext; [|eapply (without_skip w m _ w' m' e); [done|exact HW|done|done]].
      intros x. cbn beta. rewrite Hiff. naive_solver.
    + eapply without_ext; [|exact HW]. intros x. cbn beta. rewrite Hiff. naive_solver.
Qed.
Lemma leave_main s c cl m :
  wok (s_world s) m → s_clients s !! c = Some cl → c ∈ w_valid (s_world s) → c ∉ cl_owned cl →
  (∀ k, ¬ is_edge m k c) →
  let gone x := x = c ∨ x ∈ cl_owned cl ∧ x ∈ w_valid (s_world s) in
  ∃ s' m', destroy_client s c = Ok s' ∧ wok (s_world s') m' ∧
    (∀ e, e ∈ w_valid (s_world s') ↔ e ∈ w_valid (s_world s) ∧ ¬ gone e ∧ ¬ ∃ b, gone b ∧ attached m e b) ∧
    (∀ e t, e ∈ w_valid (s_world s') → w_comps (s_world s') !! (t, e) = w_comps (s_world s) !! (t, e)) ∧
    s_clients s' = delete c (s_clients s).
Proof.
  intros Hw Hc Hcv Hco Hce gone. unfold destroy_client. rewrite Hc. cbn [opt_res mbind res_bind].
  destruct (leave_fold (elements (cl_owned cl)) (s_world s) m Hw) as (w' & m' & -> & HW).
  cbn [mbind res_bind].
  assert (Hcv' : c ∈ w_valid w').
  { apply HW. split; [done|]. split; [by rewrite elem_of_elements; intros [? _]|].
    intros (b & _ & (k & i & Hk & _)). by eapply Hce. }
  destruct (w_destroy_spec w' m' c (wo_wok _ _ _ _ _ HW) Hcv') as (w2 & m2 & -> & HD). cbn [mbind res_bind].
  pose proof (without_step _ _ _ _ _ _ _ _ HW Hcv' HD) as HW2.
  assert (HW3 : without (s_world s) m gone w2 m2).
  { eapply without_ext; [|exact HW2]. intros x. cbn beta. unfold gone. rewrite elem_of_elements. tauto. }
  eexists _, m2. split; [done|]. cbn [s_world s_clients]. split_and!; [apply HW3|apply HW3| |done].
  intros e t He. destruct (w_comps (s_world s) !! (t, e)) as [v|] eqn:E.
  - apply (wo_comps _ _ _ _ _ HW3). done.
  - destruct (w_comps w2 !! (t, e)) as [v|] eqn:E'; [|done].
    apply (wo_comps _ _ _ _ _ HW3) in E' as [? _]. congruence.
Qed.
