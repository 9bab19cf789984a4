(** Preservation of the representation invariant: remove_all_edges. *)
From Verif Require Import Outcome Chain FreeListModel FreeListProofs GraphModel GraphSpec
  GraphProofs GraphProofs2 GraphProofs3.

Lemma remove_edge_list_spec (l : free_list edge) LE h c fuel :
  fl_ok l LE → chain (fl_nx l) h c → NoDup c → (∀ k, k ∈ c → k ∈ LE) → length c ≤ fuel →
  ∃ l', remove_edge_list l fuel h = Ok l' ∧ fl_ok l' (LE ∖ list_to_set c) ∧
        (∀ k, k ∉ c → fl_elem l' !! k = fl_elem l !! k).
Proof.
  revert l LE h fuel. induction c as [|k c IH]; intros l LE h fuel Hok Hc Hnd Hin Hf.
  { simpl in Hc. subst h. exists l. split; [by destruct fuel|]. split; [|done].
    simpl. by rewrite difference_empty_L. }
  destruct Hc as (-> & n & Hn & Hc). apply NoDup_cons in Hnd as [Hk Hnd].
  destruct fuel as [|fuel]; [simpl in Hf; lia|]. simpl.
  unfold fl_nx in Hn. apply fmap_Some in Hn as ([ed n'] & He & ->).
  rewrite (fl_get_elem _ _ _ He). simpl.
  destruct (fl_remove_spec edge_dflt _ _ k Hok) as (l1 & -> & Hok1 & Hsame1 & _); [set_solver|].
  simpl. destruct (IH l1 (LE ∖ {[k]}) n' fuel) as (l2 & -> & Hok2 & Hsame2).
  - done.
  - eapply chain_ext; [|exact Hc]. intros y Hy. unfold fl_nx. rewrite Hsame1; [done|]. by intros ->.
  - done.
  - set_solver.
  - simpl in Hf. lia.
  - exists l2. split; [done|]. split.
    + by replace (LE ∖ ({[k]} ∪ list_to_set c)) with (LE ∖ {[k]} ∖ list_to_set c) by set_solver.
    + intros y Hy. apply not_elem_of_cons in Hy as [Hy1 Hy2]. rewrite Hsame2 by done. by apply Hsame1.
Qed.
Global Arguments remove_edge_list : simpl never.

Definition E_cut (E : nat → nat → list nat) (i j s t : nat) : list nat :=
  if decide (pair_is i j s t) then [] else E s t.

Definition drop_edges (m : mgraph) (c : list nat) : mgraph :=
  MGraph (mg_nodes m) (filter (λ kv, kv.1 ∉ c) (mg_edges m)).
Definition isolate (m : mgraph) (i : nat) : mgraph :=
  MGraph (mg_nodes m) (filter (λ ke, ke.2.1.2 ≠ i ∧ ke.2.2 ≠ i) (mg_edges m)).

Lemma joins_drop m c k s t : joins (drop_edges m c) k s t ↔ k ∉ c ∧ joins m k s t.
Proof.
  unfold joins. simpl. setoid_rewrite map_filter_lookup_Some. simpl. naive_solver.
Qed.

Lemma dom_drop m c : dom (mg_edges (drop_edges m c)) = dom (mg_edges m) ∖ list_to_set c.
Proof.
  apply set_eq. intros k. rewrite elem_of_difference, elem_of_list_to_set, !elem_of_dom. simpl.
  unfold is_Some. setoid_rewrite map_filter_lookup_Some. simpl. naive_solver.
Qed.

Lemma isolate_drop m i c : (∀ k, k ∈ c → incident m k i) → isolate (drop_edges m c) i = isolate m i.
Proof.
  intros Hc. unfold isolate, drop_edges. simpl. f_equal. apply map_eq. intros k.
  apply option_eq. intros [[x s] t]. rewrite !map_filter_lookup_Some. simpl.
  split; [tauto|]. intros (Hk & H1 & H2). split_and!; try done.
  intros Hin. apply Hc in Hin as (j & y & [Hy|Hy]); simplify_eq.
Qed.

Lemma isolate_done i h g m N E LA :
  grep (Some (i, h)) g m N E LA → N i = [] → ginv g (isolate m i).
Proof.
  intros R HN.
  assert (isolate m i = m) as ->.
  { destruct m as [mn me]. unfold isolate. simpl. f_equal. apply map_filter_id.
    intros k [[y s] t] Hk. simpl.
    assert (HE0 : ∀ u, E i u = []).
    { intros u. destruct (E i u) as [|e es] eqn:HE; [done|]. exfalso.
      assert (Hu : u ∈ (N i).*2) by (apply (r_N _ _ _ _ _ _ R); by rewrite HE).
      rewrite HN in Hu. set_solver. }
    split; intros ->.
    - assert (Hin : k ∈ E i t) by (apply (r_E _ _ _ _ _ _ R); exists y; auto).
      rewrite HE0 in Hin; set_solver.
    - assert (Hin : k ∈ E i s) by (apply (r_E _ _ _ _ _ _ R); exists y; auto).
      rewrite HE0 in Hin; set_solver. }
  exists N, E, LA. destruct R. split; try done.
  intros t y nc Ht. destruct (r_node _ _ _ Ht) as (h' & nx & He & Hd & Hc).
  simpl in He. case_decide as Hti.
  - simplify_eq. exists None, nx. split_and!; [done|done|by rewrite HN].
  - exists h', nx. done.
Qed.

Lemma remove_adj_list_spec i fuel : ∀ g m N E LA h,
  grep (Some (i, h)) g m N E LA → live_node m i → length (N i) ≤ fuel →
  ∃ g', remove_adj_list g i fuel h = Ok g' ∧ ginv g' (isolate m i) ∧
        (gclean g m → gclean g' m).
Proof.
  induction fuel as [|fuel IH]; intros g m N E LA h R [[xi nci] Hi] Hf.
  all: destruct (r_node _ _ _ _ _ _ R _ _ _ Hi) as (h' & nxi & Hei & Hh & Hci);
    rewrite (Hh h eq_refl) in Hci; clear Hei h' Hh.
  all: destruct (N i) as [|[a j] L] eqn:HN.
  all: try (simpl in Hf; lia).
  all: try (simpl in Hci; subst h; eexists; split; [done|]; split; [|done]; by eapply isolate_done).
  simpl in Hci. destruct Hci as (-> & n & Hn & Hci). simpl.
  assert (Haj : (a, j) ∈ N i) by (rewrite HN; set_solver).
  destruct (r_adj _ _ _ _ _ _ R _ _ _ Haj) as (anx & Hae & HEne & [[xj ncj] Hj]).
  unfold fl_nx in Hn. rewrite Hae in Hn. simpl in Hn. simplify_eq. rename n into anx.
  rewrite (fl_get_elem _ _ _ Hae). simpl.
  assert (HEin : ∀ k, k ∈ E i j → k ∈ dom (mg_edges m)).
  { intros k Hk. apply (r_E _ _ _ _ _ _ R) in Hk as (y & [Hy|Hy]); by eapply elem_of_dom_2. }
  destruct (remove_edge_list_spec (g_edges g) _ (head (E i j)) (E i j) (fl_range (g_edges g))
    (r_eok _ _ _ _ _ _ R) (r_echain _ _ _ _ _ _ R i j) (r_End _ _ _ _ _ _ R i j) HEin
    (r_Elen _ _ _ _ _ _ i j R)) as (el & -> & Heok & Hesame).
  simpl.
  (* facts about the edge lists *)
  assert (HE'E : ∀ s t k', k' ∈ E_cut E i j s t ↔ joins (drop_edges m (E i j)) k' s t).
  { intros s t k'. rewrite joins_drop, <- (r_E _ _ _ _ _ _ R s t). unfold E_cut. destruct (decide (pair_is i j s t)) as [Hp|Hp].
    - split; [by intros ?%elem_of_nil|]. intros [Hn Hin]. exfalso. apply Hn.
      destruct Hp as [[-> ->]|[-> ->]]; [done|]. by rewrite (r_Esym _ _ _ _ _ _ R).
    - split; [|tauto]. intros Hin. split; [|done]. intros Hin'.
      apply (r_E _ _ _ _ _ _ R) in Hin, Hin'.
      destruct (joins_ends _ _ _ _ _ _ Hin' Hin) as [[-> ->]|[-> ->]]; apply Hp; unfold pair_is; auto. }
  assert (HE'nd : ∀ s t, NoDup (E_cut E i j s t)).
  { intros s t. unfold E_cut. case_decide; [constructor|apply (r_End _ _ _ _ _ _ R)]. }
  assert (HE'sym : ∀ s t, E_cut E i j s t = E_cut E i j t s).
  { intros s t. unfold E_cut. rewrite (r_Esym _ _ _ _ _ _ R).
    repeat case_decide; try done; exfalso; unfold pair_is in *; naive_solver. }
  assert (HE'ne : ∀ s t, E_cut E i j s t ≠ [] → E s t ≠ []).
  { intros s t. unfold E_cut. by case_decide. }
  assert (HE'chain : ∀ s t, chain (fl_nx el) (head (E_cut E i j s t)) (E_cut E i j s t)).
  { intros s t. destruct (decide (pair_is i j s t)) as [Hp|Hp].
    - unfold E_cut. by rewrite decide_True.
    - assert (E_cut E i j s t = E s t) as Heq by (unfold E_cut; by rewrite decide_False).
      rewrite Heq. eapply chain_ext; [|apply (r_echain _ _ _ _ _ _ R)].
      intros y Hy. unfold fl_nx. rewrite Hesame; [done|]. intros Hy'.
      apply (r_E _ _ _ _ _ _ R) in Hy, Hy'.
      destruct (joins_ends _ _ _ _ _ _ Hy' Hy) as [[-> ->]|[-> ->]]; apply Hp; unfold pair_is; auto. }
  assert (HE'other : ∀ s t, ¬ pair_is i j s t → E_cut E i j s t = E s t).
  { intros s t Hp. unfold E_cut. by rewrite decide_False. }
  assert (HE'nil : ∀ s t, pair_is i j s t → E_cut E i j s t = []).
  { intros s t Hp. unfold E_cut. by rewrite decide_True. }
  assert (HNdisj : ∀ s t c, s ≠ t → c ∈ (N s).*1 → c ∉ (N t).*1).
  { intros s t c Hst H1 H2. apply elem_of_list_fmap in H1 as ([c1 u1] & -> & H1).
    apply elem_of_list_fmap in H2 as ([c2 u2] & Heq & H2). simpl in Heq. subst.
    by destruct (r_Nuniq _ _ _ _ _ _ R _ _ _ _ _ H1 H2). }
  assert (HNid : ∀ t, t ≠ i → t ≠ j → N_of (E_cut E i j) N t = N t).
  { intros t Hti Htj. apply N_of_id. intros c u Hin. rewrite HE'other.
    - by destruct (r_adj _ _ _ _ _ _ R _ _ _ Hin) as (_ & _ & ? & _).
    - intros [[? ?]|[? ?]]; done. }
  assert (HNi : N_of (E_cut E i j) N i = L).
  { unfold N_of. rewrite HN. refine (filter_one [] L a j (λ y, E_cut E i j i y ≠ []) _ _).
    - simpl. pose proof (r_Nnd _ _ _ _ _ _ R i) as Hnd. by rewrite HN in Hnd.
    - intros t Ht. split.
      + intros Hne ->. apply Hne, HE'nil. left. done.
      + intros Hne. rewrite HE'other.
        * simpl in Ht. assert (t ∈ (N i).*2) as Ht' by (by rewrite HN).
          apply elem_of_list_fmap in Ht' as ([c u] & -> & Hin).
          by destruct (r_adj _ _ _ _ _ _ R _ _ _ Hin) as (_ & _ & ? & _).
        * intros [[? ?]|[? ?]]; naive_solver. }
  assert (HaLA : a ∈ LA) by (apply (r_LA _ _ _ _ _ _ R); eauto).
  assert (HNLA : ∀ t c, c ∈ (N t).*1 → c ∈ LA).
  { intros t c Hc. apply elem_of_list_fmap in Hc as ([c' u] & -> & Hin). apply (r_LA _ _ _ _ _ _ R). eauto. }
  assert (Hiso : isolate (drop_edges m (E i j)) i = isolate m i).
  { apply isolate_drop. intros k Hk. exists j. by apply (r_E _ _ _ _ _ _ R). }
  assert (Hedges : ∀ k, is_Some (mg_edges (drop_edges m (E i j)) !! k) → fst <$> fl_elem el !! k = fst <$> fl_elem (g_edges g) !! k).
  { intros k [v Hk]. simpl in Hk. apply map_filter_lookup_Some in Hk as [_ Hk]. by rewrite Hesame. }
  assert (Hsubm : ∀ k v, mg_edges (drop_edges m (E i j)) !! k = Some v → mg_edges m !! k = Some v).
  { intros k v Hk. simpl in Hk. by apply map_filter_lookup_Some in Hk as [? _]. }
  assert (HNi1 : (N i).*1 = a :: L.*1) by (by rewrite HN).
  assert (Hnd1 : NoDup (a :: L.*1)) by (rewrite <- HNi1; by eapply r_Nnd1).
  apply NoDup_cons in Hnd1 as [HaL HndL].
  destruct (r_node _ _ _ _ _ _ R _ _ _ Hj) as (hj & nxj & Hej & Hhj & Hcj).
  rewrite (fl_get_elem _ _ _ Hej). simpl.
  destruct (decide (j = i)) as [->|Hji].
  - (* self loop: the list of [i] is detached *)
    rewrite (decide_True (P := Some i = Some i)) by done. simpl.
    assert (find_adj (g_adjs g) (fl_range (g_adjs g)) None i = Ok None) as ->
      by (by destruct (fl_range (g_adjs g))).
    simpl. rewrite (fl_get_elem _ _ _ Hae). simpl.
    destruct (fl_remove_spec adj_dflt _ _ a (r_aok _ _ _ _ _ _ R) HaLA) as (al & -> & Haok & Hasame & _).
    simpl.
    destruct (IH (Graph (g_nodes g) el al) (drop_edges m (E i i)) (N_of (E_cut E i i) N) (E_cut E i i) (LA ∖ {[a]}) anx)
      as (g' & Hg' & Hinv & Hcl).
    + eapply (assemble_remove (Some (i, Some a)) (Some (i, anx)) g m N E LA); try done; simpl.
      * exact (r_nok _ _ _ _ _ _ R).
      * by rewrite <- dom_drop in Heok.
      * intros s c t Hin Hne. destruct (r_adj _ _ _ _ _ _ R _ _ _ Hin) as (nx & He & _ & _).
        assert (Hnp : ¬ pair_is i i s t) by (intros Hp; by apply Hne, HE'nil).
        rewrite HE'other by done. rewrite Hasame; [by rewrite He|].
        intros ->. destruct (r_Nuniq _ _ _ _ _ _ R _ _ _ _ _ Hin Haj) as [-> ->]. apply Hnp. by left.
      * intros c. rewrite elem_of_difference, elem_of_singleton, (r_LA _ _ _ _ _ _ R).
        setoid_rewrite elem_of_N_of. split.
        -- intros [(s & t & Hin) Hca]. exists s, t. split; [done|].
           rewrite HE'other.
           ++ by destruct (r_adj _ _ _ _ _ _ R _ _ _ Hin) as (_ & _ & ? & _).
           ++ intros Hp. apply Hca. assert (s = i ∧ t = i) as [-> ->] by (unfold pair_is in Hp; naive_solver).
              eapply NoDup_fst_snd_eq; [apply (r_Nnd _ _ _ _ _ _ R)| |]; eauto.
        -- intros (s & t & Hin & Hne). split; [eauto|]. intros ->.
           destruct (r_Nuniq _ _ _ _ _ _ R _ _ _ _ _ Hin Haj) as [-> ->]. apply Hne, HE'nil. by left.
      * intros t y nc Ht. destruct (r_node _ _ _ _ _ _ R _ _ _ Ht) as (h & nx & He & Hd & Hc).
        destruct (decide (t = i)) as [->|Hti].
        -- simpl in He. rewrite decide_True in He by done. exists anx, nx.
           rewrite decide_True by done. split; [done|]. split; [by intros; simplify_eq|].
           rewrite HNi. eapply chain_ext; [|exact Hci]. intros c Hc'. unfold fl_nx.
           rewrite Hasame; [done|]. by intros ->.
        -- simpl in He. rewrite decide_False in He by congruence. exists h, nx.
           rewrite decide_False by congruence. split; [done|]. split; [intros; simplify_eq|].
           rewrite HNid by done. eapply chain_ext; [|exact Hc]. intros c Hc'. unfold fl_nx.
           rewrite Hasame; [done|]. intros ->. eapply (HNdisj t i); [done|exact Hc'|]. rewrite HNi1. set_solver.
    + by exists (xi, nci).
    + rewrite HNi. simpl in Hf. lia.
    + unfold set_adjs; simpl. exists g'. rewrite <- Hiso. done.
  - rewrite decide_False in Hej |- * by congruence. simpl.
    destruct (adj_between _ _ _ _ _ _ j i R) as (b & M1 & M2 & HNj & HiM1).
    { by rewrite (r_Esym _ _ _ _ _ _ R). }
    assert (Hbj : (b, i) ∈ N j) by (rewrite HNj; (clear; set_solver)).
    destruct (find_adj_spec _ _ (N j) i (fl_range (g_adjs g)) Hcj) as [(M1' & b' & M2' & HNj2 & HiM1' & ->)|[Hn _]].
    { exact (r_cells _ _ _ _ _ _ _ R). } { exact (r_Nlen _ _ _ _ _ _ _ R). }
    2:{ exfalso. apply Hn. apply elem_of_list_fmap. by exists (b, i). }
    assert (b' = b) as ->.
    { eapply (NoDup_fst_snd_eq (N j)); [apply (r_Nnd _ _ _ _ _ _ R)| |]; [|exact Hbj]. rewrite HNj2. (clear; set_solver). }
    simpl. destruct (r_adj _ _ _ _ _ _ R _ _ _ Hbj) as (bnx & Hbe & _ & _).
    assert (HbLA : b ∈ LA) by (apply (r_LA _ _ _ _ _ _ R); eauto).
    assert (Hba : b ≠ a). { intros ->. destruct (r_Nuniq _ _ _ _ _ _ R _ _ _ _ _ Haj Hbj). done. }
    destruct (upd_a_edge_spec (set_edges g el) LA b _ _ None (r_aok _ _ _ _ _ _ R) HbLA Hbe)
      as (al1 & -> & Haok1 & Hael1).
    simpl in *.
    assert (HNj1 : (N j).*1 = M1.*1 ++ b :: M2.*1) by (by rewrite HNj, fmap_app, fmap_cons).
    assert (HNj' : N_of (E_cut E i j) N j = M1 ++ M2).
    { unfold N_of. rewrite HNj. refine (filter_one M1 M2 b i (λ y, E_cut E i j j y ≠ []) _ _).
      - rewrite <- HNj. apply (r_Nnd _ _ _ _ _ _ R).
      - intros t Ht. split.
        + intros Hne ->. apply Hne, HE'nil. right. done.
        + intros Hne. rewrite HE'other.
          * rewrite <- HNj in Ht. apply elem_of_list_fmap in Ht as ([c u] & -> & Hin).
            by destruct (r_adj _ _ _ _ _ _ R _ _ _ Hin) as (_ & _ & ? & _).
          * intros [[? ?]|[? ?]]; naive_solver. }
    destruct (remove_adjacency_low (set_adjs (set_edges g el) al1) j b bnx (Some i)
      (Node (Some xj) ncj hj) nxj (dom (mg_nodes m)) LA M1.*1 M2.*1 (r_nok _ _ _ _ _ _ R))
      as (nl & al2 & h2 & -> & Hnok2 & Haok2 & Hnlj & Hnlo & Hch2 & Hf1 & Hf2 & Hcl2).
    { by eapply elem_of_dom_2. } { done. } { done. }
    { intros c Hc. apply (HNLA j). by rewrite HNj1. }
    { rewrite <- HNj1. by eapply r_Nnd1. }
    { simpl. rewrite <- HNj1. eapply chain_ext; [|exact Hcj]. intros c Hc. unfold fl_nx. rewrite Hael1.
      destruct (decide (c = b)) as [->|].
      - rewrite list_lookup_insert by (by eapply lookup_lt_Some). by rewrite Hbe.
      - by rewrite list_lookup_insert_ne. }
    { simpl. rewrite Hael1. apply list_lookup_insert. by eapply lookup_lt_Some. }
    simpl in *.
    assert (Hsame2 : ∀ c, c ∉ (N j).*1 → fl_elem al2 !! c = fl_elem (g_adjs g) !! c).
    { intros c Hc. rewrite HNj1 in Hc. rewrite Hf2; [|(clear - Hc; set_solver)|(clear - Hc; set_solver)].
      rewrite Hael1. rewrite list_lookup_insert_ne; [done|]. set_solver. }
    assert (HaNj : a ∉ (N j).*1).
    { eapply (HNdisj i j); [done|]. rewrite HNi1. set_solver. }
    assert (Hae2 : fl_elem al2 !! a = Some (Adj (Some j) (head (E i j)), anx)) by (by rewrite Hsame2).
    rewrite (fl_get_elem _ _ _ Hae2). simpl.
    destruct (fl_remove_spec adj_dflt _ _ a Haok2) as (al & -> & Haok & Hasame & _); [set_solver|].
    simpl.
    destruct (IH (Graph nl el al) (drop_edges m (E i j)) (N_of (E_cut E i j) N) (E_cut E i j) (LA ∖ {[b]} ∖ {[a]}) anx)
      as (g' & Hg' & Hinv & Hcl).
    + eapply (assemble_remove (Some (i, Some a)) (Some (i, anx)) g m N E LA); try done; simpl.
      * by rewrite <- dom_drop in Heok.
      * intros s c t Hin Hne. destruct (r_adj _ _ _ _ _ _ R _ _ _ Hin) as (nx & He & _ & _).
        assert (Hnp : ¬ pair_is i j s t) by (intros Hp; by apply Hne, HE'nil).
        rewrite HE'other by done.
        assert (c ≠ a).
        { intros ->. destruct (r_Nuniq _ _ _ _ _ _ R _ _ _ _ _ Hin Haj) as [-> ->]. apply Hnp. by left. }
        assert (c ≠ b).
        { intros ->. destruct (r_Nuniq _ _ _ _ _ _ R _ _ _ _ _ Hin Hbj) as [-> ->]. apply Hnp. by right. }
        rewrite Hasame by done. rewrite Hf1 by done. rewrite Hael1, list_lookup_insert_ne by done. by rewrite He.
      * intros c. rewrite !elem_of_difference, !elem_of_singleton, (r_LA _ _ _ _ _ _ R).
        setoid_rewrite elem_of_N_of. split.
        -- intros [[(s & t & Hin) Hcb] Hca]. exists s, t. split; [done|].
           rewrite HE'other.
           ++ by destruct (r_adj _ _ _ _ _ _ R _ _ _ Hin) as (_ & _ & ? & _).
           ++ intros [[-> ->]|[-> ->]].
              ** apply Hca. eapply NoDup_fst_snd_eq; [apply (r_Nnd _ _ _ _ _ _ R)| |]; eauto.
              ** apply Hcb. eapply NoDup_fst_snd_eq; [apply (r_Nnd _ _ _ _ _ _ R)| |]; eauto.
        -- intros (s & t & Hin & Hne).
           assert (Hnp : ¬ pair_is i j s t) by (intros Hp; by apply Hne, HE'nil).
           split_and!; [eauto| |].
           ++ intros ->. destruct (r_Nuniq _ _ _ _ _ _ R _ _ _ _ _ Hin Hbj) as [-> ->]. apply Hnp. by right.
           ++ intros ->. destruct (r_Nuniq _ _ _ _ _ _ R _ _ _ _ _ Hin Haj) as [-> ->]. apply Hnp. by left.
      * intros t y nc Ht. destruct (r_node _ _ _ _ _ _ R _ _ _ Ht) as (h & nx & He & Hd & Hc).
        destruct (decide (t = i)) as [->|Hti]; [|destruct (decide (t = j)) as [->|Htj]].
        -- simpl in He. rewrite decide_True in He by done. exists anx, nx.
           rewrite decide_True by done. split; [by rewrite Hnlo|]. split; [by intros; simplify_eq|].
           rewrite HNi. eapply chain_ext; [|exact Hci]. intros c Hc'. unfold fl_nx.
           rewrite Hasame by (by intros ->). rewrite Hsame2; [done|].
           eapply (HNdisj i j); [done|]. rewrite HNi1. (clear - Hc'; set_solver).
        -- rewrite Hj in Ht. simplify_eq. exists h2, nxj. rewrite decide_False by congruence.
           split; [done|]. split; [intros; simplify_eq|].
           rewrite HNj', fmap_app. eapply chain_ext; [|exact Hch2]. intros c Hc'. unfold fl_nx.
           rewrite Hasame; [done|]. intros ->. apply HaNj. rewrite HNj1. (clear - Hc'; set_solver).
        -- simpl in He. rewrite decide_False in He by congruence. exists h, nx.
           rewrite decide_False by congruence. rewrite Hnlo by done. split; [done|]. split; [intros; simplify_eq|].
           rewrite HNid by done. eapply chain_ext; [|exact Hc]. intros c Hc'. unfold fl_nx.
           rewrite Hasame. 2:{ intros ->. eapply (HNdisj t i); [done|exact Hc'|]. rewrite HNi1. set_solver. }
           rewrite Hsame2; [done|]. by eapply HNdisj.
    + by exists (xi, nci).
    + rewrite HNi. simpl in Hf. lia.
    + unfold set_adjs; simpl. exists g'. rewrite <- Hiso. split; [done|]. split; [done|].
      intros Hc. apply Hcl. unfold gclean. simpl. by apply Hcl2.
Qed.

Lemma remove_all_edges_spec g m i :
  ginv g m → live_node m i →
  ∃ g', remove_all_edges g i = Ok g' ∧ ginv g' (isolate m i) ∧ (gclean g m → gclean g' (isolate m i)).
Proof.
  intros (N & E & LA & R) [[x nc] Hi]. unfold remove_all_edges.
  destruct (grep_node_plain _ _ _ _ _ _ _ _ R Hi) as (h & nx & He & Hc).
  rewrite (fl_get_elem _ _ _ He). simpl.
  destruct (upd_n_adj_spec g _ i _ _ None (r_nok _ _ _ _ _ _ R) ltac:(by eapply elem_of_dom_2) He)
    as (nl & -> & Hnok & Hnel & Hcl).
  simpl.
  destruct (remove_adj_list_spec i (fl_range (g_adjs g)) (set_nodes g nl) m N E LA h) as (g' & -> & Hinv & Hcl').
  - pose proof R as R0. destruct R. split; try done.
    simpl. intros t y nc' Ht. destruct (grep_node_plain _ _ _ _ _ _ _ _ R0 Ht) as (h' & nx' & He' & Hc').
    rewrite Hnel. destruct (decide (t = i)) as [->|Hti].
    + rewrite He in He'. simplify_eq. rewrite list_lookup_insert by (by eapply lookup_lt_Some).
      exists h', nx'. rewrite decide_True by done. split; [done|]. split; [by intros; simplify_eq|done].
    + rewrite list_lookup_insert_ne by done. exists h', nx'. rewrite decide_False by congruence.
      split; [done|]. split; [intros; simplify_eq|done].
  - by eexists.
  - by eapply r_Nlen.
  - exists g'. split; [done|]. split; [done|]. intros Hc0. unfold gclean in *. simpl in *. auto.
Qed.
