(** Representation invariant of entity_graph and its preservation by every
    mutating operation. *)
From Verif Require Import Outcome Chain FreeListModel FreeListProofs GraphModel GraphSpec.

Lemma NoDup_bounded_length (l : list nat) n :
  NoDup l → (∀ x, x ∈ l → x < n) → length l ≤ n.
Proof.
  intros Hnd Hb. rewrite <- (seq_length n 0).
  apply submseteq_length, NoDup_submseteq; [done|].
  intros x Hx. rewrite elem_of_seq. apply Hb in Hx. lia.
Qed.

(** ** Low level lemmas on one free list *)
Section lowlevel.
Context {T : Type}.

Lemma fl_get_elem (l : free_list T) i e : fl_elem l !! i = Some e → fl_get l (Some i) = Ok e.
Proof. intros H. simpl. by rewrite H. Qed.

Lemma chain_bounded (l : free_list T) h c :
  chain (fl_nx l) h c → ∀ i, i ∈ c → i < length (fl_elem l).
Proof.
  intros Hc i Hi. destruct (chain_lookup _ _ _ _ Hc Hi) as [n Hn].
  unfold fl_nx in Hn. apply fmap_Some in Hn as (e & He & _). by eapply lookup_lt_Some.
Qed.

Lemma chain_fuel (l : free_list T) h c : chain (fl_nx l) h c → NoDup c → length c ≤ fl_range l.
Proof. intros Hc Hnd. apply NoDup_bounded_length; [done|]. by eapply chain_bounded. Qed.

Lemma collect_chain (l : free_list T) h c fuel :
  chain (fl_nx l) h c → NoDup c → length c ≤ fuel → collect l fuel h = Ok c.
Proof.
  revert h fuel. induction c as [|x c IH]; intros h fuel; simpl.
  { intros -> _ _. by destruct fuel. }
  intros (-> & n & Hn & Hc) Hnd Hf. apply NoDup_cons in Hnd as [Hx Hnd].
  destruct fuel as [|fuel]; [simpl in Hf; lia|]. simpl.
  unfold fl_nx in Hn. apply fmap_Some in Hn as (e & He & ->). rewrite He. simpl.
  rewrite bool_decide_true.
  2:{ intros E. rewrite E in Hc. apply chain_head in Hc. destruct c; simplify_eq/=. set_solver. }
  simpl. rewrite IH; [done|done|done|]. lia.
Qed.

Lemma find_prev_spec (l : free_list T) h (l1 : list nat) x (l2 : list nat) fuel :
  chain (fl_nx l) h (l1 ++ x :: l2) → NoDup (l1 ++ x :: l2) → l1 ≠ [] → length l1 ≤ fuel →
  ∃ p l0, l1 = l0 ++ [p] ∧ find_prev l fuel h x = Ok p.
Proof.
  revert h fuel. induction l1 as [|y l1 IH]; intros h fuel Hc Hnd Hne Hf; [done|].
  simpl in Hc. destruct Hc as (-> & n & Hn & Hc).
  destruct fuel as [|fuel]; [simpl in Hf; lia|]. simpl.
  unfold fl_nx in Hn. apply fmap_Some in Hn as (e & He & ->). rewrite He. simpl.
  simpl in Hnd. apply NoDup_cons in Hnd as [Hy Hnd].
  destruct l1 as [|z l1].
  - simpl in Hc. destruct Hc as (Hc & _). rewrite decide_True by done.
    exists y, []. done.
  - rewrite decide_False.
    2:{ intros E. destruct Hc as (Hc & _). rewrite E in Hc. simplify_eq.
        simpl in Hnd. apply NoDup_cons in Hnd as [Hz _]. set_solver. }
    rewrite bool_decide_true. 2:{ destruct Hc as (Hc & _). rewrite Hc. eauto. }
    simpl. destruct (IH e.2 fuel) as (p & l0 & Heq & Hfp); [done|done|done|simpl in *; lia|].
    exists p, (y :: l0). rewrite Heq. split; [done|]. done.
Qed.
End lowlevel.

Definition opt_head (l : list nat) : option nat := head l.

(** Adjacency list [L] of a node: pairs of adjacency slot and neighbour. *)
Definition adj_cells (adjs : free_list adjacency) (L : list (nat * nat)) : Prop :=
  ∀ a j, (a, j) ∈ L → ∃ ed nx, fl_elem adjs !! a = Some (Adj (Some j) ed, nx).

Lemma find_adj_spec adjs h L t fuel :
  chain (fl_nx adjs) h L.*1 → adj_cells adjs L → length L ≤ fuel →
  (∃ L1 a L2, L = L1 ++ (a, t) :: L2 ∧ t ∉ L1.*2 ∧ find_adj adjs fuel h t = Ok (Some a)) ∨
  (t ∉ L.*2 ∧ find_adj adjs fuel h t = Ok None).
Proof.
  revert h fuel. induction L as [|[a j] L IH]; intros h fuel Hc Hcell Hf.
  { simpl in Hc. subst. right. split; [set_solver|]. by destruct fuel. }
  simpl in Hc. destruct Hc as (-> & n & Hn & Hc).
  destruct fuel as [|fuel]; [simpl in Hf; lia|].
  destruct (Hcell a j) as (ed & nx & Ha); [set_solver|].
  simpl. unfold fl_nx in Hn. rewrite Ha in Hn. simpl in Hn. simplify_eq. rewrite Ha. simpl.
  destruct (decide (j = t)) as [->|Hne].
  - left. exists [], a, L. rewrite decide_True by done. split_and!; [done|set_solver|done].
  - rewrite decide_False by congruence.
    destruct (IH n fuel) as [(L1 & b & L2 & -> & Ht & Hfa)|[Ht Hfa]]; [done| |simpl in Hf; lia| |].
    + intros b k Hbk. apply Hcell. set_solver.
    + left. exists ((a, j) :: L1), b, L2. split_and!; [done|set_solver|done].
    + right. split; [set_solver|done].
Qed.

Lemma find_adj_strict_spec adjs h L t fuel :
  chain (fl_nx adjs) h L.*1 → adj_cells adjs L → length L < fuel → t ∈ L.*2 →
  ∃ L1 a L2, L = L1 ++ (a, t) :: L2 ∧ t ∉ L1.*2 ∧ find_adj_strict adjs fuel h t = Ok a.
Proof.
  revert h fuel. induction L as [|[a j] L IH]; intros h fuel Hc Hcell Hf Ht; [set_solver|].
  simpl in Hc. destruct Hc as (-> & n & Hn & Hc).
  destruct fuel as [|fuel]; [simpl in Hf; lia|].
  destruct (Hcell a j) as (ed & nx & Ha); [set_solver|].
  simpl. unfold fl_nx in Hn. rewrite Ha in Hn. simpl in Hn. simplify_eq. rewrite Ha. simpl.
  destruct (decide (j = t)) as [->|Hne].
  - exists [], a, L. rewrite decide_True by done. split_and!; [done|set_solver|done].
  - rewrite decide_False by congruence.
    destruct (IH n fuel) as (L1 & b & L2 & -> & Ht' & Hfa); [done| |simpl in Hf; lia| |].
    + intros b k Hbk. apply Hcell. set_solver.
    + simpl in Ht. apply elem_of_cons in Ht as [->|Ht]; done.
    + exists ((a, j) :: L1), b, L2. split_and!; [done| |done].
      simpl. apply not_elem_of_cons. done.
Qed.

Global Arguments fl_get : simpl never.
Global Arguments fl_set : simpl never.
Global Arguments fl_insert : simpl never.
Global Arguments fl_remove : simpl never.

(** ** The invariant *)

(** [N i]: adjacency list of node [i]; [E i j]: edge list of the pair [i], [j].
    [det]: the node whose list is detached from its slot while
    remove_all_edges runs, and the head of the remaining part. *)
Record grep (det : option (nat * option nat)) (g : graph) (m : mgraph)
    (N : nat → list (nat * nat)) (E : nat → nat → list nat) (LA : gset nat) : Prop := {
  r_nok : fl_ok (g_nodes g) (dom (mg_nodes m));
  r_eok : fl_ok (g_edges g) (dom (mg_edges m));
  r_aok : fl_ok (g_adjs g) LA;
  r_node : ∀ i x nc, mg_nodes m !! i = Some (x, nc) →
    ∃ h nx, fl_elem (g_nodes g) !! i =
              Some (Node (Some x) nc (if decide (fst <$> det = Some i) then None else h), nx) ∧
            (∀ h', det = Some (i, h') → h = h') ∧
            chain (fl_nx (g_adjs g)) h (N i).*1;
  r_dead : ∀ i, mg_nodes m !! i = None → N i = [];
  r_adj : ∀ i a j, (a, j) ∈ N i →
    ∃ nx, fl_elem (g_adjs g) !! a = Some (Adj (Some j) (head (E i j)), nx) ∧
          E i j ≠ [] ∧ live_node m j;
  r_edge : ∀ k x i j, mg_edges m !! k = Some (x, i, j) →
    ∃ a0 a1 nx, fl_elem (g_edges g) !! k = Some (Edge (Some x) (Some i) (Some j) a0 a1, nx) ∧
                live_node m i ∧ live_node m j;
  r_echain : ∀ i j, chain (fl_nx (g_edges g)) (head (E i j)) (E i j);
  r_E : ∀ i j k, k ∈ E i j ↔ joins m k i j;
  r_End : ∀ i j, NoDup (E i j);
  r_Esym : ∀ i j, E i j = E j i;
  r_N : ∀ i j, E i j ≠ [] → j ∈ (N i).*2;
  r_Nnd : ∀ i, NoDup (N i).*2;
  r_Nuniq : ∀ i i' a j j', (a, j) ∈ N i → (a, j') ∈ N i' → i = i' ∧ j = j';
  r_LA : ∀ a, a ∈ LA ↔ ∃ i j, (a, j) ∈ N i
}.

Definition gclean (g : graph) (m : mgraph) : Prop :=
  fl_clean node_dflt (g_nodes g) (dom (mg_nodes m)).

Definition ginv (g : graph) (m : mgraph) : Prop := ∃ N E LA, grep None g m N E LA.

Lemma joins_sym m k i j : joins m k i j ↔ joins m k j i.
Proof. unfold joins. naive_solver. Qed.

Lemma joins_ends m k i j i' j' :
  joins m k i j → joins m k i' j' → (i = i' ∧ j = j') ∨ (i = j' ∧ j = i').
Proof. unfold joins. intros (x & Hx) (y & Hy). destruct Hx, Hy; simplify_eq; auto. Qed.

Lemma NoDup_fst_of_snd (L : list (nat * nat)) :
  NoDup L.*2 → (∀ a j j', (a, j) ∈ L → (a, j') ∈ L → j = j') → NoDup L.*1.
Proof.
  induction L as [|[a j] L IH]; simpl; intros Hnd Hu; [constructor|].
  apply NoDup_cons in Hnd as [Hj Hnd]. constructor.
  - intros Ha. apply elem_of_list_fmap in Ha as ([a' j'] & Heq & Hin). simpl in Heq. subst a'.
    assert (j = j') as <- by (eapply (Hu a); set_solver).
    apply Hj. apply elem_of_list_fmap. by exists (a, j).
  - apply IH; [done|]. intros b k k' H1 H2. eapply (Hu b); set_solver.
Qed.

Lemma NoDup_fst_snd_eq (L : list (nat * nat)) a b j :
  NoDup L.*2 → (a, j) ∈ L → (b, j) ∈ L → a = b.
Proof.
  induction L as [|[c t] L IH]; simpl; intros Hnd Ha Hb; [set_solver|].
  apply NoDup_cons in Hnd as [Ht Hnd].
  assert (Hx : ∀ d, (d, t) ∉ L).
  { intros d Hd. apply Ht. apply elem_of_list_fmap. by exists (d, t). }
  apply elem_of_cons in Ha as [Ha|Ha], Hb as [Hb|Hb]; simplify_eq.
  - done.
  - by destruct (Hx b).
  - by destruct (Hx a).
  - eauto.
Qed.

Lemma r_Nnd1 det g m N E LA i : grep det g m N E LA → NoDup (N i).*1.
Proof.
  intros R. apply NoDup_fst_of_snd; [by eapply r_Nnd|].
  intros a j j' H1 H2. by destruct (r_Nuniq _ _ _ _ _ _ R _ _ _ _ _ H1 H2).
Qed.

Lemma r_cells det g m N E LA i : grep det g m N E LA → adj_cells (g_adjs g) (N i).
Proof. intros R a j Hin. destruct (r_adj _ _ _ _ _ _ R _ _ _ Hin) as (nx & Hl & _). eauto. Qed.

Lemma r_Nlen det g m N E LA i : grep det g m N E LA → length (N i) ≤ fl_range (g_adjs g).
Proof.
  intros R. rewrite <- (fmap_length fst).
  apply NoDup_bounded_length; [by eapply r_Nnd1|].
  intros a Ha. apply elem_of_list_fmap in Ha as ([a' j] & -> & Hin).
  destruct (r_adj _ _ _ _ _ _ R _ _ _ Hin) as (nx & Hl & _). by eapply lookup_lt_Some.
Qed.

Lemma r_Elen det g m N E LA i j : grep det g m N E LA → length (E i j) ≤ fl_range (g_edges g).
Proof.
  intros R. eapply chain_fuel; [by eapply r_echain|by eapply r_End].
Qed.

Lemma grep_node_plain g m N E LA i x nc :
  grep None g m N E LA → mg_nodes m !! i = Some (x, nc) →
  ∃ h nx, fl_elem (g_nodes g) !! i = Some (Node (Some x) nc h, nx) ∧
          chain (fl_nx (g_adjs g)) h (N i).*1.
Proof.
  intros R Hi. destruct (r_node _ _ _ _ _ _ R _ _ _ Hi) as (h & nx & He & _ & Hc).
  simpl in He. eauto.
Qed.

Lemma ginv_empty : ginv g_empty mg_empty.
Proof.
  exists (λ _, []), (λ _ _, []), ∅. split; simpl; try done.
  - rewrite dom_empty_L. apply fl_empty_ok.
  - rewrite dom_empty_L. apply fl_empty_ok.
  - apply fl_empty_ok.
  - intros i a j H. set_solver.
  - intros i j k. split; [set_solver|]. intros (x & H). unfold mg_empty in H. simpl in H.
    rewrite !lookup_empty in H. naive_solver.
  - intros. constructor.
  - intros. constructor.
  - set_solver.
  - set_solver.
Qed.

Lemma ginv_clear g : ginv (g_clear g) mg_empty.
Proof.
  exists (λ _, []), (λ _ _, []), ∅. split; simpl; try done.
  - rewrite dom_empty_L. apply fl_clear_ok.
  - rewrite dom_empty_L. apply fl_clear_ok.
  - apply fl_clear_ok.
  - intros i a j H. set_solver.
  - intros i j k. split; [set_solver|]. intros (x & H). unfold mg_empty in H. simpl in H.
    rewrite !lookup_empty in H. naive_solver.
  - intros. constructor.
  - intros. constructor.
  - set_solver.
  - set_solver.
Qed.

(** ** insert_node *)
Lemma insert_node_spec g m x nc :
  ginv g m →
  ∃ g' i, insert_node g (Some x) nc = Ok (g', i) ∧ mg_nodes m !! i = None ∧
    ginv g' (MGraph (<[i := (x, nc)]> (mg_nodes m)) (mg_edges m)) ∧
    (gclean g m → gclean g' (MGraph (<[i := (x, nc)]> (mg_nodes m)) (mg_edges m))).
Proof.
  intros (N & E & LA & R). unfold insert_node. rewrite bool_decide_true by eauto.
  destruct (fl_insert_spec node_dflt _ _ (Node (Some x) nc None) None (r_nok _ _ _ _ _ _ R))
    as (l' & i & Hins & Hfresh & Hok & Hel & Hsame & Hlen & Hclean).
  simpl. rewrite Hins. simpl. eexists _, i. split; [done|].
  apply not_elem_of_dom in Hfresh. split; [done|]. split.
  2:{ intros Hcl. unfold gclean. simpl. rewrite dom_insert_L. by apply Hclean. }
  exists N, E, LA. destruct R. split; simpl; try done.
  - by rewrite dom_insert_L.
  - intros j y nc' Hj. destruct (decide (j = i)) as [->|Hne].
    + rewrite lookup_insert in Hj. simplify_eq. exists None, None.
      rewrite Hel. split_and!; [|done|].
      { simpl. rewrite ?decide_False by done. done. }
      rewrite r_dead0 by done. done.
    + rewrite lookup_insert_ne in Hj by done.
      destruct (r_node0 _ _ _ Hj) as (h & nx & He & Hd & Hc).
      exists h, nx. rewrite Hsame; [done|done|]. by eapply lookup_lt_Some.
  - intros j Hj. apply lookup_insert_None in Hj as [Hj _]. auto.
  - intros j a k Hin. destruct (r_adj0 _ _ _ Hin) as (nx & He & Hne & Hl).
    exists nx. split_and!; [done|done|]. unfold live_node in *. simpl.
    apply lookup_insert_is_Some'. auto.
  - intros k y a b Hk. destruct (r_edge0 _ _ _ _ Hk) as (a0 & a1 & nx & He & H1 & H2).
    eexists _, _, _. split_and!; [done| |]; unfold live_node in *; simpl;
    apply lookup_insert_is_Some'; auto.
Qed.

(** ** remove_node *)
Lemma no_incident_N det g m N E LA i :
  grep det g m N E LA → (∀ k, ¬ incident m k i) → N i = [].
Proof.
  intros R Hno. destruct (N i) as [|[a j] L] eqn:HN; [done|]. exfalso.
  destruct (r_adj _ _ _ _ _ _ R i a j) as (nx & _ & HE & _); [rewrite HN; set_solver|].
  destruct (E i j) as [|k ks] eqn:HEk; [done|].
  apply (Hno k). exists j. apply (r_E _ _ _ _ _ _ R). rewrite HEk. set_solver.
Qed.

Lemma remove_node_spec g m i :
  ginv g m → live_node m i → (∀ k, ¬ incident m k i) →
  ∃ g', remove_node g i = Ok g' ∧
    ginv g' (MGraph (delete i (mg_nodes m)) (mg_edges m)) ∧
    (gclean g m → gclean g' (MGraph (delete i (mg_nodes m)) (mg_edges m))).
Proof.
  intros (N & E & LA & R) [[x nc] Hi] Hno. unfold remove_node.
  assert (HN := no_incident_N _ _ _ _ _ _ _ R Hno).
  destruct (grep_node_plain _ _ _ _ _ _ _ _ R Hi) as (h & nx & He & Hc).
  rewrite (fl_get_elem _ _ _ He). simpl. rewrite HN in Hc. simpl in Hc. subst h.
  rewrite !bool_decide_true by eauto. simpl.
  destruct (fl_remove_spec node_dflt _ _ i (r_nok _ _ _ _ _ _ R)) as (l' & Hrem & Hok & Hsame & Hlen & Hclean).
  { by eapply elem_of_dom_2. }
  rewrite Hrem. simpl. eexists. split; [done|]. split.
  2:{ intros Hcl. unfold gclean. simpl. rewrite dom_delete_L. by apply Hclean. }
  assert (Hlive : ∀ j k, j ≠ i → live_node m j → live_node (MGraph (delete i (mg_nodes m)) k) j).
  { intros j k Hne Hl. unfold live_node in *. simpl. by rewrite lookup_delete_ne. }
  assert (Hnoj : ∀ k a j, ¬ joins m k a j ∨ (a ≠ i ∧ j ≠ i)).
  { intros k a j. destruct (decide (a = i)) as [->|].
    - left. intros Hj. apply (Hno k). by exists j.
    - destruct (decide (j = i)) as [->|]; [|auto]. left. intros Hj. apply (Hno k). exists a.
      by apply joins_sym. }
  exists N, E, LA. destruct R. split; simpl; try done.
  - by rewrite dom_delete_L.
  - intros j y nc' Hj. apply lookup_delete_Some in Hj as [Hne Hj].
    destruct (r_node0 _ _ _ Hj) as (h & nx' & He' & Hd & Hc').
    exists h, nx'. rewrite Hsame by done. done.
  - intros j Hj. apply lookup_delete_None in Hj as [->|Hj]; [done|]. auto.
  - intros j a k Hin. destruct (r_adj0 _ _ _ Hin) as (nx' & He' & Hne & Hl).
    exists nx'. split_and!; [done|done|]. apply Hlive; [|done].
    intros ->. destruct (E j i) as [|e es] eqn:HE; [done|].
    destruct (Hnoj e j i) as [Hn|[_ Hn]]; [|done]. apply Hn, r_E0. rewrite HE. set_solver.
  - intros k y a b Hk. destruct (r_edge0 _ _ _ _ Hk) as (a0 & a1 & nx' & He' & H1 & H2).
    eexists _, _, _. split; [done|]. destruct (Hnoj k a b) as [Hn|[Ha Hb]].
    + exfalso. apply Hn. exists y. auto.
    + split; by apply Hlive.
Qed.

(** ** set_connecting_node *)
Lemma set_connecting_spec g m i c :
  ginv g m → live_node m i →
  ∃ g', set_connecting_node g i c = Ok g' ∧
    let m' := MGraph (alter (λ v, (v.1, negb c)) i (mg_nodes m)) (mg_edges m) in
    ginv g' m' ∧ (gclean g m → gclean g' m').
Proof.
  intros (N & E & LA & R) [[x nc] Hi]. unfold set_connecting_node.
  destruct (grep_node_plain _ _ _ _ _ _ _ _ R Hi) as (h & nx & He & Hc).
  rewrite (fl_get_elem _ _ _ He). simpl.
  destruct (fl_set_spec node_dflt _ _ i (Node (Some x) (negb c) h, nx) (r_nok _ _ _ _ _ _ R))
    as (l' & Hset & Hok & Hel & Hclean).
  { by eapply elem_of_dom_2. }
  rewrite Hset. simpl. eexists. split; [done|]. split.
  2:{ intros Hcl. unfold gclean. simpl. rewrite dom_alter_L. by apply Hclean. }
  assert (Hlive : ∀ j f k, live_node m j → live_node (MGraph (alter f i (mg_nodes m)) k) j).
  { intros j f k Hl. unfold live_node in *. simpl. destruct (decide (i = j)) as [->|].
    - rewrite lookup_alter. by apply fmap_is_Some.
    - by rewrite lookup_alter_ne. }
  exists N, E, LA. destruct R. split; simpl; try done.
  - by rewrite dom_alter_L.
  - intros j y nc' Hj. rewrite Hel. destruct (decide (j = i)) as [->|Hne].
    + rewrite lookup_alter, Hi in Hj. simpl in Hj. simplify_eq.
      rewrite list_lookup_insert by (by eapply lookup_lt_Some). exists h, nx.
      rewrite ?decide_False by done. done.
    + rewrite lookup_alter_ne in Hj by done. rewrite list_lookup_insert_ne by done. exact (r_node0 _ _ _ Hj).
  - intros j Hj. destruct (decide (j = i)) as [->|Hne].
    + rewrite lookup_alter, Hi in Hj. done.
    + rewrite lookup_alter_ne in Hj by done. auto.
  - intros j a k Hin. destruct (r_adj0 _ _ _ Hin) as (nx' & He' & Hne & Hl). eauto 6.
  - intros k y a b Hk. destruct (r_edge0 _ _ _ _ Hk) as (a0 & a1 & nx' & He' & H1 & H2).
    eexists _, _, _. split_and!; eauto.
Qed.
