(** Preservation of the representation invariant: edges. *)
From Verif Require Import Outcome Chain FreeListModel FreeListProofs GraphModel GraphSpec GraphProofs.

(** ** Low level specifications of the field updates *)
Lemma upd_n_adj_spec g NL i nd nx h :
  fl_ok (g_nodes g) NL → i ∈ NL → fl_elem (g_nodes g) !! i = Some (nd, nx) →
  ∃ l, upd_n_adj g (Some i) h = Ok (set_nodes g l) ∧ fl_ok l NL ∧
       fl_elem l = <[i := (Node (n_ent nd) (n_nc nd) h, nx)]> (fl_elem (g_nodes g)) ∧
       (fl_clean node_dflt (g_nodes g) NL → fl_clean node_dflt l NL).
Proof.
  intros Hok Hi He. unfold upd_n_adj. rewrite (fl_get_elem _ _ _ He). simpl.
  destruct (fl_set_spec node_dflt _ _ i (Node (n_ent nd) (n_nc nd) h, nx) Hok Hi)
    as (l & -> & ? & ? & ?). simpl. eauto.
Qed.

Lemma upd_a_edge_spec g LA a ad nx h :
  fl_ok (g_adjs g) LA → a ∈ LA → fl_elem (g_adjs g) !! a = Some (ad, nx) →
  ∃ l, upd_a_edge g (Some a) h = Ok (set_adjs g l) ∧ fl_ok l LA ∧
       fl_elem l = <[a := (Adj (a_node ad) h, nx)]> (fl_elem (g_adjs g)).
Proof.
  intros Hok Hi He. unfold upd_a_edge. rewrite (fl_get_elem _ _ _ He). simpl.
  destruct (fl_set_spec adj_dflt _ _ a (Adj (a_node ad) h, nx) Hok Hi)
    as (l & -> & ? & ? & ?). simpl. eauto.
Qed.

Lemma upd_a_next_spec g LA a ad nx h :
  fl_ok (g_adjs g) LA → a ∈ LA → fl_elem (g_adjs g) !! a = Some (ad, nx) →
  ∃ l, upd_a_next g (Some a) h = Ok (set_adjs g l) ∧ fl_ok l LA ∧
       fl_elem l = <[a := (ad, h)]> (fl_elem (g_adjs g)).
Proof.
  intros Hok Hi He. unfold upd_a_next. rewrite (fl_get_elem _ _ _ He). simpl.
  destruct (fl_set_spec adj_dflt _ _ a (ad, h) Hok Hi) as (l & -> & ? & ? & ?). simpl. eauto.
Qed.

Lemma upd_e_next_spec g LE k ed nx h :
  fl_ok (g_edges g) LE → k ∈ LE → fl_elem (g_edges g) !! k = Some (ed, nx) →
  ∃ l, upd_e_next g (Some k) h = Ok (set_edges g l) ∧ fl_ok l LE ∧
       fl_elem l = <[k := (ed, h)]> (fl_elem (g_edges g)).
Proof.
  intros Hok Hi He. unfold upd_e_next. rewrite (fl_get_elem _ _ _ He). simpl.
  destruct (fl_set_spec edge_dflt _ _ k (ed, h) Hok Hi) as (l & -> & ? & ? & ?). simpl. eauto.
Qed.

Lemma upd_e_a0_spec g LE k ed nx h :
  fl_ok (g_edges g) LE → k ∈ LE → fl_elem (g_edges g) !! k = Some (ed, nx) →
  ∃ l, upd_e_a0 g (Some k) h = Ok (set_edges g l) ∧ fl_ok l LE ∧
       fl_elem l = <[k := (Edge (e_ent ed) (e_n0 ed) (e_n1 ed) h (e_a1 ed), nx)]> (fl_elem (g_edges g)).
Proof.
  intros Hok Hi He. unfold upd_e_a0. rewrite (fl_get_elem _ _ _ He). simpl.
  destruct (fl_set_spec edge_dflt _ _ k
    (Edge (e_ent ed) (e_n0 ed) (e_n1 ed) h (e_a1 ed), nx) Hok Hi) as (l & -> & ? & ? & ?).
  simpl. eauto.
Qed.

Lemma upd_e_a1_spec g LE k ed nx h :
  fl_ok (g_edges g) LE → k ∈ LE → fl_elem (g_edges g) !! k = Some (ed, nx) →
  ∃ l, upd_e_a1 g (Some k) h = Ok (set_edges g l) ∧ fl_ok l LE ∧
       fl_elem l = <[k := (Edge (e_ent ed) (e_n0 ed) (e_n1 ed) (e_a0 ed) h, nx)]> (fl_elem (g_edges g)).
Proof.
  intros Hok Hi He. unfold upd_e_a1. rewrite (fl_get_elem _ _ _ He). simpl.
  destruct (fl_set_spec edge_dflt _ _ k
    (Edge (e_ent ed) (e_n0 ed) (e_n1 ed) (e_a0 ed) h, nx) Hok Hi) as (l & -> & ? & ? & ?).
  simpl. eauto.
Qed.

Global Arguments upd_n_adj : simpl never.
Global Arguments upd_a_edge : simpl never.
Global Arguments upd_a_next : simpl never.
Global Arguments upd_e_next : simpl never.
Global Arguments upd_e_a0 : simpl never.
Global Arguments upd_e_a1 : simpl never.
Global Arguments find_adj : simpl never.
Global Arguments find_adj_strict : simpl never.
Global Arguments find_prev : simpl never.

Lemma has_adjacency_spec g i nd nx L t :
  fl_elem (g_nodes g) !! i = Some (nd, nx) →
  chain (fl_nx (g_adjs g)) (n_adj nd) L.*1 → adj_cells (g_adjs g) L →
  length L ≤ fl_range (g_adjs g) →
  has_adjacency g i t = Ok (bool_decide (t ∈ L.*2)).
Proof.
  intros He Hc Hcell Hlen. unfold has_adjacency. rewrite (fl_get_elem _ _ _ He). simpl.
  destruct (find_adj_spec _ _ _ t (fl_range (g_adjs g)) Hc Hcell Hlen)
    as [(L1 & a & L2 & -> & Ht & ->)|[Ht ->]]; simpl; f_equal.
  - symmetry. apply bool_decide_true. rewrite fmap_app, fmap_cons. set_solver.
  - symmetry. by apply bool_decide_false.
Qed.

(** ** insert_adjacency_one_way *)
Lemma insert_one_way_low g NL LA i j k nd nx L :
  fl_ok (g_nodes g) NL → i ∈ NL → fl_elem (g_nodes g) !! i = Some (nd, nx) →
  fl_ok (g_adjs g) LA → chain (fl_nx (g_adjs g)) (n_adj nd) L.*1 → adj_cells (g_adjs g) L →
  (∀ a, a ∈ L.*1 → a ∈ LA) → length L ≤ fl_range (g_adjs g) → j ∉ L.*2 →
  ∃ a nl al, insert_adjacency_one_way g i j k = Ok (Graph nl (g_edges g) al, a) ∧
    a ∉ LA ∧ fl_ok nl NL ∧ fl_ok al ({[a]} ∪ LA) ∧
    fl_elem nl = <[i := (Node (n_ent nd) (n_nc nd) (Some a), nx)]> (fl_elem (g_nodes g)) ∧
    (fl_clean node_dflt (g_nodes g) NL → fl_clean node_dflt nl NL) ∧
    fl_elem al !! a = Some (Adj (Some j) (Some k), n_adj nd) ∧
    (∀ b, b ∈ LA → fl_elem al !! b = fl_elem (g_adjs g) !! b).
Proof.
  intros Hnok Hi He Haok Hc Hcell HLA Hlen Hj. unfold insert_adjacency_one_way.
  rewrite (has_adjacency_spec _ _ _ _ _ _ He Hc Hcell Hlen). simpl.
  rewrite bool_decide_false by done. simpl.
  destruct (fl_insert_spec adj_dflt _ _ (Adj (Some j) (Some k)) None Haok)
    as (al & a & -> & Hfresh & Haok' & Hael & Hasame & Halen & _).
  simpl. rewrite (fl_get_elem _ _ _ He). simpl.
  destruct (upd_a_next_spec (set_adjs g al) ({[a]} ∪ LA) a (Adj (Some j) (Some k)) None (n_adj nd))
    as (al' & -> & Haok'' & Hael'); [done|set_solver|done|].
  simpl.
  destruct (upd_n_adj_spec (set_adjs (set_adjs g al) al') NL i nd nx (Some a))
    as (nl & -> & Hnok' & Hnel & Hcl); [done|done|done|].
  simpl. exists a, nl, al'. split_and!; try done.
  - rewrite Hael'. simpl. rewrite list_lookup_insert; [done|]. by eapply lookup_lt_Some.
  - intros b Hb. rewrite Hael'. simpl. rewrite list_lookup_insert_ne by set_solver.
    apply Hasame; [set_solver|]. by eapply flo_range.
Qed.

Definition pair_is (i j s t : nat) : Prop := (s = i ∧ t = j) ∨ (s = j ∧ t = i).
Global Instance pair_is_dec i j s t : Decision (pair_is i j s t).
Proof. unfold pair_is. apply _. Defined.

Definition E_ins (E : nat → nat → list nat) (i j k s t : nat) : list nat :=
  if decide (pair_is i j s t) then k :: E s t else E s t.

Lemma joins_insert m k x i j k' s t :
  mg_edges m !! k = None →
  joins (MGraph (mg_nodes m) (<[k := (x, i, j)]> (mg_edges m))) k' s t ↔
  (k' = k ∧ pair_is i j s t) ∨ (k' ≠ k ∧ joins m k' s t).
Proof.
  intros Hk. unfold joins, pair_is. simpl. destruct (decide (k' = k)) as [->|Hne].
  - setoid_rewrite lookup_insert. split.
    + intros (y & [?|?]); simplify_eq; auto.
    + intros [[_ [[-> ->]|[-> ->]]]|[? _]]; [eauto|eauto|done].
  - setoid_rewrite lookup_insert_ne; [|done|done]. naive_solver.
Qed.

(** Facts about edges common to both cases of [insert_edge]. *)
Lemma edges_insert_part g m N E LA g' k x i j a0 a1 :
  grep None g m N E LA → mg_edges m !! k = None →
  (i = j → E i j = []) → live_node m i → live_node m j →
  fl_elem (g_edges g') !! k = Some (Edge (Some x) (Some i) (Some j) a0 a1, head (E i j)) →
  (∀ k', k' ≠ k → is_Some (mg_edges m !! k') → fl_elem (g_edges g') !! k' = fl_elem (g_edges g) !! k') →
  let m' := MGraph (mg_nodes m) (<[k := (x, i, j)]> (mg_edges m)) in
  let E' := E_ins E i j k in
  (∀ k' y s t, mg_edges m' !! k' = Some (y, s, t) →
    ∃ b0 b1 nx, fl_elem (g_edges g') !! k' = Some (Edge (Some y) (Some s) (Some t) b0 b1, nx) ∧
                live_node m' s ∧ live_node m' t) ∧
  (∀ s t, chain (fl_nx (g_edges g')) (head (E' s t)) (E' s t)) ∧
  (∀ s t k', k' ∈ E' s t ↔ joins m' k' s t) ∧
  (∀ s t, NoDup (E' s t)) ∧
  (∀ s t, E' s t = E' t s).
Proof.
  intros R Hk Hself Hli Hlj Hek Hsame m' E'.
  assert (HkE : ∀ s t, k ∉ E s t).
  { intros s t Hin. apply (r_E _ _ _ _ _ _ R) in Hin as (y & [Hy|Hy]); congruence. }
  assert (HE : ∀ s t k', k' ∈ E s t → fl_nx (g_edges g) k' = fl_nx (g_edges g') k').
  { intros s t k' Hin. unfold fl_nx. rewrite Hsame; [done| |].
    - intros ->. by eapply HkE.
    - apply (r_E _ _ _ _ _ _ R) in Hin as (y & [Hy|Hy]); eauto. }
  split_and!.
  - intros k' y s t Hk'. simpl in Hk'. destruct (decide (k' = k)) as [->|Hne].
    + rewrite lookup_insert in Hk'. simplify_eq. eauto 6.
    + rewrite lookup_insert_ne in Hk' by done.
      destruct (r_edge _ _ _ _ _ _ R _ _ _ _ Hk') as (b0 & b1 & nx & He & H1 & H2).
      rewrite Hsame by eauto. eauto 6.
  - intros s t. unfold E', E_ins. case_decide as Hp.
    + simpl. split; [done|]. exists (head (E i j)). split.
      { unfold fl_nx. by rewrite Hek. }
      assert (E s t = E i j) as ->.
      { destruct Hp as [[-> ->]|[-> ->]]; [done|]. apply (r_Esym _ _ _ _ _ _ R). }
      eapply chain_ext; [|apply (r_echain _ _ _ _ _ _ R)]. eauto.
    + eapply chain_ext; [|apply (r_echain _ _ _ _ _ _ R)]. eauto.
  - intros s t k'. unfold m'. rewrite joins_insert by done. unfold E', E_ins.
    rewrite <- (r_E _ _ _ _ _ _ R).
    case_decide as Hp.
    + rewrite elem_of_cons. destruct (decide (k' = k)) as [->|]; naive_solver.
    + split; [|naive_solver]. intros Hin. right. split; [|done]. intros ->. by eapply HkE.
  - intros s t. unfold E', E_ins. case_decide; [constructor; [done|]|]; apply (r_End _ _ _ _ _ _ R).
  - intros s t. unfold E', E_ins. rewrite (r_Esym _ _ _ _ _ _ R s t).
    repeat case_decide; try done; unfold pair_is in *; naive_solver.
Qed.

Lemma chain_insert_notin {T} (l : free_list T) (l' : list (T * option nat)) h c a e :
  chain (fl_nx l) h c → a ∉ c → l' = <[a := e]> (fl_elem l) →
  chain (λ i, snd <$> l' !! i) h c.
Proof.
  intros Hc Ha ->. eapply chain_ext; [|exact Hc]. intros i Hi. unfold fl_nx.
  rewrite list_lookup_insert_ne; [done|]. by intros ->.
Qed.

(** The new adjacencies [a] of [i] and [b] of [j] ([a = b] for a self-loop). *)
Lemma assemble_new g m N E LA g' k x i j a b N' :
  grep None g m N E LA → mg_edges m !! k = None → E i j = [] → live_node m i → live_node m j →
  let m' := MGraph (mg_nodes m) (<[k := (x, i, j)]> (mg_edges m)) in
  (∃ a0 a1, fl_elem (g_edges g') !! k = Some (Edge (Some x) (Some i) (Some j) a0 a1, None)) →
  (∀ k', k' ≠ k → is_Some (mg_edges m !! k') → fl_elem (g_edges g') !! k' = fl_elem (g_edges g) !! k') →
  fl_ok (g_nodes g') (dom (mg_nodes m)) →
  fl_ok (g_edges g') ({[k]} ∪ dom (mg_edges m)) →
  fl_ok (g_adjs g') ({[a]} ∪ ({[b]} ∪ LA)) →
  a ∉ LA → b ∉ LA → (a = b → i = j) →
  (∀ t c u, (c, u) ∈ N' t ↔ (c, u) ∈ N t ∨ (c = a ∧ t = i ∧ u = j) ∨ (c = b ∧ t = j ∧ u = i)) →
  (∀ t, NoDup (N' t).*2) →
  (∃ nx, fl_elem (g_adjs g') !! a = Some (Adj (Some j) (Some k), nx)) →
  (∃ nx, fl_elem (g_adjs g') !! b = Some (Adj (Some i) (Some k), nx)) →
  (∀ c, c ∈ LA → fl_elem (g_adjs g') !! c = fl_elem (g_adjs g) !! c) →
  (∀ t y nc, mg_nodes m !! t = Some (y, nc) →
    ∃ h nx, fl_elem (g_nodes g') !! t = Some (Node (Some y) nc h, nx) ∧
            chain (fl_nx (g_adjs g')) h (N' t).*1) →
  ginv g' m'.
Proof.
  intros R Hk HEij Hli Hlj m' (a0 & a1 & Hek) Hsame Hnok Heok Haok Ha Hb Hab HN' Hnd (nxa & Hea) (nxb & Heb)
    Hasame Hnode.
  destruct (edges_insert_part g m N E LA g' k x i j a0 a1 R Hk) as (P1 & P2 & P3 & P4 & P5);
    [done|done|done|by rewrite HEij|done|].
  assert (HLA : ∀ t a c, (a, c) ∈ N t → a ∈ LA).
  { intros t c u Hin. apply (r_LA _ _ _ _ _ _ R). eauto. }
  exists N', (E_ins E i j k), ({[a]} ∪ ({[b]} ∪ LA)). split; try done.
  - simpl. by rewrite dom_insert_L.
  - intros t y nc Ht. destruct (Hnode _ _ _ Ht) as (h & nx & ? & ?). exists h, nx. done.
  - intros t Ht. assert (HNt := r_dead _ _ _ _ _ _ R _ Ht).
    destruct (N' t) as [|[c u] L] eqn:HNt'; [done|]. exfalso.
    assert (Hin : (c, u) ∈ N' t) by (rewrite HNt'; set_solver).
    simpl in Ht. apply HN' in Hin as [Hin|[(-> & -> & ->)|(-> & -> & ->)]].
    + rewrite HNt in Hin. set_solver.
    + destruct Hli; congruence.
    + destruct Hlj; congruence.
  - intros s c t Hin. apply HN' in Hin as [Hin|[(-> & -> & ->)|(-> & -> & ->)]].
    + destruct (r_adj _ _ _ _ _ _ R _ _ _ Hin) as (nx & He & Hne & Hl).
      rewrite Hasame by eauto. exists nx. unfold E_ins. rewrite decide_False; [done|].
      intros [[-> ->]|[-> ->]]; [done|]. rewrite (r_Esym _ _ _ _ _ _ R) in Hne. done.
    + exists nxa. unfold E_ins. rewrite decide_True by (left; done). done.
    + exists nxb. unfold E_ins. rewrite decide_True by (right; done). done.
  - intros s t Hne. unfold E_ins in Hne. apply elem_of_list_fmap. case_decide as Hp.
    + destruct Hp as [[-> ->]|[-> ->]].
      * exists (a, j). split; [done|]. apply HN'. auto.
      * exists (b, i). split; [done|]. apply HN'. auto.
    + apply (r_N _ _ _ _ _ _ R) in Hne. apply elem_of_list_fmap in Hne as ([c u] & -> & Hin).
      exists (c, u). split; [done|]. apply HN'. auto.
  - intros s s' c t t' H1 H2.
    apply HN' in H1 as [H1|[(-> & -> & ->)|(-> & -> & ->)]],
              H2 as [H2|[(Heq & -> & ->)|(Heq & -> & ->)]]; try subst c; try by eauto.
    + by eapply r_Nuniq.
    + exfalso; eauto.
    + exfalso; eauto.
    + exfalso; eauto.
    + pose proof (Hab Heq). by subst.
    + exfalso; eauto.
    + symmetry in Heq. pose proof (Hab Heq). by subst.
  - intros c. rewrite !elem_of_union, !elem_of_singleton. setoid_rewrite HN'.
    rewrite (r_LA _ _ _ _ _ _ R). naive_solver.
Qed.

(** ** insert_edge *)
Lemma insert_edge_spec g m x i j :
  ginv g m → live_node m i → live_node m j → (i = j → ¬ adjacent m i i) →
  ∃ g' k, insert_edge g (Some x) i j = Ok (g', k) ∧ mg_edges m !! k = None ∧
    let m' := MGraph (mg_nodes m) (<[k := (x, i, j)]> (mg_edges m)) in
    ginv g' m' ∧ (gclean g m → gclean g' m').
Proof.
  intros (N & E & LA & R) Hli Hlj Hself.
  destruct Hli as [[xi nci] Hi] eqn:Hli'; clear Hli'.
  destruct Hlj as [[xj ncj] Hj] eqn:Hlj'; clear Hlj'.
  assert (Hselfl : i = j → E i j = []).
  { intros ->. destruct (E j j) as [|k ks] eqn:HE; [done|]. exfalso. apply Hself; [done|].
    exists k. apply (r_E _ _ _ _ _ _ R). rewrite HE. set_solver. }
  unfold insert_edge. simpl.
  destruct (grep_node_plain _ _ _ _ _ _ _ _ R Hi) as (hi & nxi & Hei & Hci).
  destruct (grep_node_plain _ _ _ _ _ _ _ _ R Hj) as (hj & nxj & Hej & Hcj).
  rewrite (fl_get_elem _ _ _ Hei). simpl.
  rewrite (fl_get_elem _ _ _ Hej). simpl.
  destruct (fl_insert_spec edge_dflt _ _ (Edge (Some x) (Some i) (Some j) None None) None
    (r_eok _ _ _ _ _ _ R)) as (el & k & -> & Hfresh & Heok & Heel & Hesame & Helen & _).
  simpl. apply not_elem_of_dom in Hfresh.
  assert (Hrange : ∀ k', is_Some (mg_edges m !! k') → k' < length (fl_elem (g_edges g))).
  { intros k' Hk'. eapply flo_range; [by eapply r_eok|]. by apply elem_of_dom. }
  assert (HLA : ∀ t a, a ∈ (N t).*1 → a ∈ LA).
  { intros t a Ha. apply elem_of_list_fmap in Ha as ([a' b] & -> & Hin).
    apply (r_LA _ _ _ _ _ _ R). eauto. }
  destruct (find_adj_spec _ _ (N i) j (fl_range (g_adjs g)) Hci) as [(L1 & a & L2 & HN & HjL1 & ->)|[HjN ->]].
  { by eapply r_cells. } { exact (r_Nlen _ _ _ _ _ _ _ R). }
  - (* the adjacency exists *)
    simpl.
    assert (Haj : (a, j) ∈ N i) by (rewrite HN; set_solver).
    destruct (r_adj _ _ _ _ _ _ R _ _ _ Haj) as (anx & Hae & HEne & _).
    assert (Hij : i ≠ j). { intros ->. by rewrite Hselfl in HEne. }
    destruct (upd_e_a0_spec (set_edges g el) ({[k]} ∪ dom (mg_edges m)) k
      (Edge (Some x) (Some i) (Some j) None None) None (Some a) Heok)
      as (el1 & -> & Heok1 & Heel1); [set_solver|done|].
    simpl. rewrite (fl_get_elem _ _ _ Hae). simpl.
    destruct (E i j) as [|f fs] eqn:HEij; [done|]. simpl.
    assert (Hkel : k < length (fl_elem el)) by (by eapply lookup_lt_Some).
    destruct (upd_e_next_spec (set_edges (set_edges g el) el1) ({[k]} ∪ dom (mg_edges m)) k
      (Edge (Some x) (Some i) (Some j) (Some a) None) None (Some f)) as (el2 & -> & Heok2 & Heel2).
    { done. } { set_solver. } { simpl. rewrite Heel1. simpl. by rewrite list_lookup_insert. }
    simpl.
    assert (HaLA : a ∈ LA) by (apply (r_LA _ _ _ _ _ _ R); eauto).
    destruct (upd_a_edge_spec (set_edges (set_edges (set_edges g el) el1) el2) LA a
      (Adj (Some j) (Some f)) anx (Some k)) as (al1 & -> & Haok1 & Hael1).
    { exact (r_aok _ _ _ _ _ _ R). } { done. } { done. }
    simpl.
    (* the opposite adjacency *)
    assert (i ∈ (N j).*2) as Hinj.
    { apply (r_N _ _ _ _ _ _ R). rewrite (r_Esym _ _ _ _ _ _ R), HEij. done. }
    apply elem_of_list_fmap in Hinj as ([b i'] & Hi' & Hbj). simpl in Hi'. subst i'.
    assert (Hab : a ≠ b).
    { intros ->. destruct (r_Nuniq _ _ _ _ _ _ R _ _ _ _ _ Haj Hbj). done. }
    assert (HaNj : a ∉ (N j).*1).
    { intros Ha. apply elem_of_list_fmap in Ha as ([a' t] & -> & Hin).
      by destruct (r_Nuniq _ _ _ _ _ _ R _ _ _ _ _ Haj Hin). }
    destruct (find_adj_spec al1 hj (N j) i (fl_range al1)) as [(M1 & b' & M2 & HNj & HiM1 & Hfind)|[HjN _]].
    { eapply (chain_insert_notin _ (fl_elem al1)); [exact Hcj|done|exact Hael1]. }
    { intros c t Hin. rewrite Hael1. simpl. rewrite list_lookup_insert_ne.
      - eapply r_cells; eauto.
      - intros ->. apply HaNj. apply elem_of_list_fmap. by exists (c, t). }
    { unfold fl_range. rewrite Hael1, insert_length. exact (r_Nlen _ _ _ _ _ _ _ R). }
    2:{ exfalso. apply HjN. apply elem_of_list_fmap. by exists (b, i). }
    rewrite Hfind. simpl.
    assert (b' = b) as ->.
    { assert ((b', i) ∈ N j) as Hin by (rewrite HNj; (clear; set_solver)).
      assert (NoDup (N j).*2) as Hnd by eapply (r_Nnd _ _ _ _ _ _ R).
      destruct (decide (b' = b)) as [|Hne]; [done|]. exfalso.
      rewrite HNj in Hbj, Hnd. rewrite fmap_app, fmap_cons in Hnd. simpl in Hnd.
      apply NoDup_app in Hnd as (_ & Hd & Hnd). apply NoDup_cons in Hnd as [Hn _].
      apply elem_of_app in Hbj as [Hb|Hb].
      - apply HiM1. apply elem_of_list_fmap. by exists (b, i).
      - apply elem_of_cons in Hb as [?|Hb]; [by simplify_eq|].
        apply Hn. apply elem_of_list_fmap. by exists (b, i). }
    destruct (r_adj _ _ _ _ _ _ R _ _ _ Hbj) as (bnx & Hbe & _ & _).
    assert (fl_elem al1 !! b = Some (Adj (Some i) (Some f), bnx)) as Hbe1.
    { rewrite Hael1. simpl. rewrite list_lookup_insert_ne by done. rewrite Hbe.
      by rewrite (r_Esym _ _ _ _ _ _ R), HEij. }
    rewrite (fl_get_elem _ _ _ Hbe1). simpl. rewrite bool_decide_true by done. simpl.
    assert (HbLA : b ∈ LA) by (apply (r_LA _ _ _ _ _ _ R); eauto).
    destruct (upd_a_edge_spec (set_adjs (set_edges (set_edges (set_edges g el) el1) el2) al1) LA b
      (Adj (Some i) (Some f)) bnx (Some k)) as (al2 & -> & Haok2 & Hael2); [done|done|done|].
    simpl.
    destruct (upd_e_a1_spec (set_adjs (set_adjs (set_edges (set_edges (set_edges g el) el1) el2) al1) al2)
      ({[k]} ∪ dom (mg_edges m)) k (Edge (Some x) (Some i) (Some j) (Some a) None) (Some f) (Some b))
      as (el3 & -> & Heok3 & Heel3).
    { done. } { set_solver. }
    { simpl. rewrite Heel2. simpl. rewrite list_lookup_insert; [done|].
      rewrite Heel1. simpl. by rewrite insert_length. }
    simpl. eexists _, k. split; [done|]. split; [done|].
    assert (Hkel3 : fl_elem el3 !! k = Some (Edge (Some x) (Some i) (Some j) (Some a) (Some b), Some f)).
    { rewrite Heel3. simpl. rewrite list_lookup_insert; [done|].
      rewrite Heel2. simpl. rewrite insert_length, Heel1. simpl. by rewrite insert_length. }
    assert (Hsame3 : ∀ k', k' ≠ k → is_Some (mg_edges m !! k') → fl_elem el3 !! k' = fl_elem (g_edges g) !! k').
    { intros k' Hne Hk'. rewrite Heel3. simpl. rewrite list_lookup_insert_ne by done.
      rewrite Heel2. simpl. rewrite list_lookup_insert_ne by done.
      rewrite Heel1. simpl. rewrite list_lookup_insert_ne by done. auto. }
    split.
    2:{ intros Hcl. done. }
    destruct (edges_insert_part g m N E LA
      (set_edges (set_adjs (set_adjs (set_edges (set_edges (set_edges g el) el1) el2) al1) al2) el3)
      k x i j (Some a) (Some b) R Hfresh) as (P1 & P2 & P3 & P4 & P5).
    { done. } { by eexists. } { by eexists. } { simpl. by rewrite HEij. } { done. }
    exists N, (E_ins E i j k), LA.
    assert (Hchain : ∀ h c, chain (fl_nx (g_adjs g)) h c → chain (fl_nx al2) h c).
    { intros h c. apply chain_ext. intros y Hy. unfold fl_nx. rewrite Hael2. simpl.
      destruct (decide (y = b)) as [->|Hyb].
      - rewrite list_lookup_insert by (rewrite Hael1; simpl; rewrite insert_length; by eapply lookup_lt_Some).
        rewrite Hbe. done.
      - rewrite list_lookup_insert_ne by done. rewrite Hael1. simpl.
        destruct (decide (y = a)) as [->|Hya].
        + rewrite list_lookup_insert by (by eapply lookup_lt_Some). by rewrite Hae.
        + by rewrite list_lookup_insert_ne. }
    split; simpl; try done.
    + by eapply r_nok.
    + by rewrite dom_insert_L.
    + intros t y nc Ht. destruct (r_node _ _ _ _ _ _ R _ _ _ Ht) as (h & nx & He & Hd & Hc).
      exists h, nx. split_and!; [done|done|]. auto.
    + by eapply r_dead.
    + intros s c t Hin. destruct (r_adj _ _ _ _ _ _ R _ _ _ Hin) as (nx & He & Hne & Hl).
      unfold E_ins. case_decide as Hp.
      * simpl. destruct Hp as [[-> ->]|[-> ->]].
        -- assert (c = a) as ->.
           { eapply NoDup_fst_snd_eq; [by eapply r_Nnd| |]; eauto. }
           exists anx. split_and!; [|done|done]. rewrite Hael2. simpl.
           rewrite list_lookup_insert_ne by done. rewrite Hael1. simpl.
           rewrite list_lookup_insert by (by eapply lookup_lt_Some). done.
        -- assert (c = b) as ->.
           { eapply NoDup_fst_snd_eq; [by eapply r_Nnd| |]; eauto. }
           exists bnx. split_and!; [|done|done]. rewrite Hael2. simpl.
           rewrite list_lookup_insert by (rewrite Hael1; simpl; rewrite insert_length; by eapply lookup_lt_Some).
           done.
      * exists nx. split_and!; [|done|done]. rewrite Hael2. simpl.
        rewrite list_lookup_insert_ne.
        2:{ intros <-. destruct (r_Nuniq _ _ _ _ _ _ R _ _ _ _ _ Hbj Hin) as [<- <-].
            apply Hp. right. done. }
        rewrite Hael1. simpl. rewrite list_lookup_insert_ne; [done|].
        intros <-. destruct (r_Nuniq _ _ _ _ _ _ R _ _ _ _ _ Haj Hin) as [<- <-].
        apply Hp. left. done.
    + intros s t Hne. unfold E_ins in Hne. case_decide as Hp; [|by eapply r_N].
      destruct Hp as [[-> ->]|[-> ->]].
      * apply elem_of_list_fmap. by exists (a, j).
      * apply elem_of_list_fmap. by exists (b, i).
    + by eapply r_Nnd.
    + by eapply r_Nuniq.
    + by eapply r_LA.
  - (* new adjacency *)
    simpl.
    assert (HEij : E i j = []).
    { destruct (E i j) as [|f fs] eqn:HEij; [done|]. exfalso. apply HjN, (r_N _ _ _ _ _ _ R).
      by rewrite HEij. }
    unfold insert_adjacency.
    destruct (insert_one_way_low (set_edges g el) (dom (mg_nodes m)) LA i j k
      (Node (Some xi) nci hi) nxi (N i)) as (a & nl & al & -> & HaLA & Hnok1 & Haok1 & Hnel & Hncl & Hael & Hasame).
    { exact (r_nok _ _ _ _ _ _ R). } { by eapply elem_of_dom_2. } { done. } { exact (r_aok _ _ _ _ _ _ R). }
    { done. } { exact (r_cells _ _ _ _ _ _ _ R). } { intros; eauto. } { exact (r_Nlen _ _ _ _ _ _ _ R). } { done. }
    simpl.
    destruct (upd_e_a0_spec (Graph nl el al) ({[k]} ∪ dom (mg_edges m)) k
      (Edge (Some x) (Some i) (Some j) None None) None (Some a) Heok)
      as (el1 & -> & Heok1 & Heel1); [set_solver|done|].
    simpl in *.
    assert (Hkel : k < length (fl_elem el)) by (by eapply lookup_lt_Some).
    assert (Hsame1 : ∀ k', k' ≠ k → is_Some (mg_edges m !! k') → fl_elem el1 !! k' = fl_elem (g_edges g) !! k').
    { intros k' Hne Hk'. rewrite Heel1. rewrite list_lookup_insert_ne by done. auto. }
    assert (Hil : i < length (fl_elem (g_nodes g))) by (by eapply lookup_lt_Some).
    assert (Hch : ∀ t h c, (∀ a, a ∈ c → a ∈ (N t).*1) → chain (fl_nx (g_adjs g)) h c → chain (fl_nx al) h c).
    { intros t h c Hsub. apply chain_ext. intros y Hy. unfold fl_nx. rewrite Hasame; [done|]. eauto. }
    case_decide as Hij.
    + subst j. rewrite Hi in Hj. simplify_eq.
      eexists _, k. split; [done|]. split; [done|].
      split; [|intros Hcl; by apply Hncl].
      eapply (assemble_new g m N E LA _ k x i i a a (λ t, if decide (t = i) then (a, i) :: N i else N t));
        try done; simpl.
      * eexists _, _. rewrite Heel1. by rewrite list_lookup_insert.
      * by replace ({[a]} ∪ ({[a]} ∪ LA)) with ({[a]} ∪ LA) by (clear; set_solver).
      * intros t c u. case_decide as Ht; subst; [|naive_solver].
        rewrite elem_of_cons. naive_solver.
      * intros t. case_decide; [|by eapply r_Nnd]. simpl. constructor; [done|by eapply r_Nnd].
      * eauto.
      * eauto.
      * intros t y nc Ht. case_decide as Hti.
        -- subst t. rewrite Hi in Ht. simplify_eq. rewrite Hnel. rewrite list_lookup_insert by done.
           eexists _, _. split; [done|]. simpl. split; [done|].
           exists hi. split; [unfold fl_nx; by rewrite Hael|]. by eapply (Hch i).
        -- destruct (grep_node_plain _ _ _ _ _ _ _ _ R Ht) as (h & nx & He & Hc).
           rewrite Hnel. rewrite list_lookup_insert_ne by done. eexists _, _. split; [done|].
           by eapply (Hch t).
    + unfold set_edges; simpl.
      destruct (insert_one_way_low (Graph nl el1 al) (dom (mg_nodes m)) ({[a]} ∪ LA) j i k
        (Node (Some xj) ncj hj) nxj (N j))
        as (b & nl2 & al2 & -> & HbLA & Hnok2 & Haok2 & Hnel2 & Hncl2 & Hael2 & Hasame2); simpl in *.
      { done. } { by eapply elem_of_dom_2. }
      { rewrite Hnel. by rewrite list_lookup_insert_ne. } { done. }
      { by eapply (Hch j). }
      { intros c t Hin. rewrite Hasame; [by eapply r_cells|]. apply (HLA j), elem_of_list_fmap. by exists (c, t). }
      { intros c Hc. apply HLA in Hc. set_solver. }
      { rewrite <- (fmap_length fst). eapply NoDup_bounded_length; [by eapply r_Nnd1|].
        intros c Hc. eapply flo_range; [exact Haok1|]. apply HLA in Hc. set_solver. }
      { intros Hin. apply elem_of_list_fmap in Hin as ([c i'] & -> & Hin). simpl in *.
        destruct (r_adj _ _ _ _ _ _ R _ _ _ Hin) as (? & _ & Hne & _).
        rewrite (r_Esym _ _ _ _ _ _ R) in Hne. done. }
      destruct (upd_e_a1_spec (Graph nl2 el1 al2) ({[k]} ∪ dom (mg_edges m)) k
        (Edge (Some x) (Some i) (Some j) (Some a) None) None (Some b))
        as (el3 & -> & Heok3 & Heel3); [done|set_solver| |].
      { simpl. rewrite Heel1. by rewrite list_lookup_insert. }
      simpl in *. eexists _, k. split; [done|]. split; [done|].
      split; [|intros Hcl; by apply Hncl2, Hncl].
      assert (Hjl : j < length (fl_elem nl)).
      { rewrite Hnel, insert_length. by eapply lookup_lt_Some. }
      assert (Hab : b ≠ a) by set_solver.
      assert (Hch2 : ∀ t h c, (∀ a, a ∈ c → a ∈ (N t).*1) → chain (fl_nx (g_adjs g)) h c → chain (fl_nx al2) h c).
      { intros t h c Hsub. apply chain_ext. intros y Hy. apply Hsub, HLA in Hy. unfold fl_nx.
        rewrite Hasame2 by set_solver. by rewrite Hasame. }
      eapply (assemble_new g m N E LA _ k x i j a b
        (λ t, if decide (t = i) then (a, j) :: N i else if decide (t = j) then (b, i) :: N j else N t));
        try done; simpl.
      * eexists _, _. rewrite Heel3, list_lookup_insert; [done|]. rewrite Heel1, insert_length. done.
      * intros k' Hne Hk'. rewrite Heel3. rewrite list_lookup_insert_ne by done. auto.
      * by replace ({[a]} ∪ ({[b]} ∪ LA)) with ({[b]} ∪ ({[a]} ∪ LA)) by (clear; set_solver).
      * set_solver.
      * intros t c u. repeat case_decide; subst; rewrite ?elem_of_cons; naive_solver.
      * intros t. repeat case_decide; [| |by eapply r_Nnd]; simpl.
        -- constructor; [done|by eapply r_Nnd].
        -- constructor; [|by eapply r_Nnd]. intros Hin.
           apply elem_of_list_fmap in Hin as ([c i'] & -> & Hin). simpl in *.
           destruct (r_adj _ _ _ _ _ _ R _ _ _ Hin) as (? & _ & Hne & _).
           rewrite (r_Esym _ _ _ _ _ _ R) in Hne. done.
      * rewrite Hasame2 by set_solver. eauto.
      * eauto.
      * intros c Hc. rewrite Hasame2 by set_solver. auto.
      * intros t y nc Ht. rewrite Hnel2. case_decide as Hti; [|case_decide as Htj].
        -- subst t. rewrite Hi in Ht. simplify_eq. rewrite list_lookup_insert_ne by done.
           rewrite Hnel, list_lookup_insert by done.
           eexists _, _. split; [done|]. simpl. split; [done|].
           exists hi. split; [unfold fl_nx; rewrite Hasame2 by set_solver; by rewrite Hael|].
           by eapply (Hch2 i).
        -- subst t. rewrite Hj in Ht. simplify_eq. rewrite list_lookup_insert by done.
           eexists _, _. split; [done|]. simpl. split; [done|].
           exists hj. split; [unfold fl_nx; by rewrite Hael2|]. by eapply (Hch2 j).
        -- destruct (grep_node_plain _ _ _ _ _ _ _ _ R Ht) as (h & nx & He & Hc).
           rewrite list_lookup_insert_ne by done.
           rewrite Hnel. rewrite list_lookup_insert_ne by done. eexists _, _. split; [done|].
           by eapply (Hch2 t).
Qed.
