(** Preservation of the representation invariant: removing edges. *)
From Verif Require Import Outcome Chain FreeListModel FreeListProofs GraphModel GraphSpec
  GraphProofs GraphProofs2.

(** Unlinking one element of a chain. *)
Lemma chain_unlink {T} (l : free_list T) (l' : list (T * option nat)) h l1 x l2 p l0 e n :
  chain (fl_nx l) h (l1 ++ x :: l2) → NoDup (l1 ++ x :: l2) → l1 = l0 ++ [p] →
  fl_nx l x = Some n →
  (∀ y, y ≠ p → y ≠ x → snd <$> l' !! y = fl_nx l y) →
  l' !! p = Some (e, n) →
  chain (λ y, snd <$> l' !! y : option (option nat)) h (l1 ++ l2).
Proof.
  intros Hc Hnd -> Hx Hsame Hp.
  apply chain_split in Hc as (Hseg & n' & Hn' & Hc). rewrite Hx in Hn'. simplify_eq.
  rewrite <- app_assoc in Hnd |- *. simpl in *.
  apply seg_app in Hseg as (q & Hseg & Hq). simpl in Hq. destruct Hq as (-> & n2 & Hn2 & ->).
  apply NoDup_app in Hnd as (Hnd0 & Hd0 & Hnd). apply NoDup_cons in Hnd as [Hpn Hnd].
  apply NoDup_cons in Hnd as [Hxn Hnd].
  apply chain_split. split.
  - eapply seg_ext; [|exact Hseg]. intros y Hy. symmetry. apply Hsame.
    + intros ->. apply (Hd0 p); set_solver.
    + intros ->. apply (Hd0 x); set_solver.
  - rewrite Hp. exists n'. split; [done|]. eapply chain_ext; [|exact Hc].
    intros y Hy. symmetry. apply Hsame; set_solver.
Qed.

Lemma remove_adjacency_low g s a anx aj nd nnx NL LA l1 l2 :
  fl_ok (g_nodes g) NL → s ∈ NL → fl_elem (g_nodes g) !! s = Some (nd, nnx) →
  fl_ok (g_adjs g) LA → (∀ c, c ∈ l1 ++ a :: l2 → c ∈ LA) → NoDup (l1 ++ a :: l2) →
  chain (fl_nx (g_adjs g)) (n_adj nd) (l1 ++ a :: l2) →
  fl_elem (g_adjs g) !! a = Some (Adj aj None, anx) →
  ∃ nl al h', remove_adjacency g (Some s) a = Ok (Graph nl (g_edges g) al) ∧
    fl_ok nl NL ∧ fl_ok al (LA ∖ {[a]}) ∧
    fl_elem nl !! s = Some (Node (n_ent nd) (n_nc nd) h', nnx) ∧
    (∀ t, t ≠ s → fl_elem nl !! t = fl_elem (g_nodes g) !! t) ∧
    chain (fl_nx al) h' (l1 ++ l2) ∧
    (∀ c, c ≠ a → fst <$> fl_elem al !! c = fst <$> fl_elem (g_adjs g) !! c) ∧
    (∀ c, c ∉ l1 → c ≠ a → fl_elem al !! c = fl_elem (g_adjs g) !! c) ∧
    (fl_clean node_dflt (g_nodes g) NL → fl_clean node_dflt nl NL).
Proof.
  intros Hnok Hs Hse Haok HLA Hnd Hc Ha. unfold remove_adjacency.
  rewrite (fl_get_elem _ _ _ Ha). simpl. rewrite ?bool_decide_true by done. simpl.
  rewrite (fl_get_elem _ _ _ Hse). simpl.
  assert (HaLA : a ∈ LA) by (apply HLA; set_solver).
  assert (Hnxa : fl_nx (g_adjs g) a = Some anx) by (unfold fl_nx; by rewrite Ha).
  destruct l1 as [|y l1].
  - simpl in Hc. destruct Hc as (Hh & n & Hn & Hc). rewrite decide_True by done.
    rewrite Hnxa in Hn. simplify_eq.
    destruct (upd_n_adj_spec g NL s nd nnx n Hnok Hs Hse) as (nl & -> & Hnok' & Hnel & Hncl).
    simpl. destruct (fl_remove_spec adj_dflt _ _ a Haok HaLA) as (al & Hrem & Haok' & Hasame & _).
    rewrite Hrem. simpl. eexists nl, al, n. split; [done|]. split_and!; try done.
    + rewrite Hnel. apply list_lookup_insert. by eapply lookup_lt_Some.
    + intros t Ht. rewrite Hnel. by rewrite list_lookup_insert_ne.
    + simpl in *. apply NoDup_cons in Hnd as [Han Hnd]. eapply chain_ext; [|exact Hc].
      intros c Hci. unfold fl_nx. rewrite Hasame; [done|]. set_solver.
    + intros c Hne. by rewrite Hasame.
    + intros c _ Hne. by rewrite Hasame.
  - rewrite decide_False.
    2:{ intros Hh. rewrite Hh in Hc. simpl in Hc. destruct Hc as (? & _). simplify_eq.
        simpl in Hnd. apply NoDup_cons in Hnd as [Hn _]. set_solver. }
    assert (Hfuel : length (y :: l1) ≤ fl_range (g_adjs g)).
    { apply chain_fuel in Hc; [|done]. rewrite app_length in Hc. lia. }
    destruct (find_prev_spec _ _ _ _ _ _ Hc Hnd ltac:(done) Hfuel) as (p & l0 & Hl1 & ->).
    simpl. assert (HpLA : p ∈ LA). { apply HLA. rewrite Hl1. set_solver. }
    destruct (chain_lookup _ _ _ p Hc) as [pn Hpn]. { rewrite Hl1. set_solver. }
    unfold fl_nx in Hpn. apply fmap_Some in Hpn as ([pd pn'] & Hpe & ->).
    assert (Hpa : p ≠ a).
    { intros ->. rewrite Hl1, <- app_assoc in Hnd. simpl in Hnd.
      apply NoDup_app in Hnd as (_ & _ & Hnd). apply NoDup_cons in Hnd as [Hn _]. set_solver. }
    destruct (upd_a_next_spec g LA p pd pn' anx Haok HpLA Hpe) as (al & -> & Haok' & Hael).
    simpl. destruct (fl_remove_spec adj_dflt _ _ a Haok' HaLA) as (al' & Hrem & Haok'' & Hasame & _).
    rewrite Hrem. simpl. destruct g as [gn ge ga]; simpl in *.
    assert (Hch : chain (fl_nx al') (n_adj nd) ((y :: l1) ++ l2)).
    { eapply (chain_unlink ga (fl_elem al') (n_adj nd) (y :: l1) a l2 p l0); try done.
      * intros z Hzp Hza. unfold fl_nx. rewrite Hasame by done. rewrite Hael.
        by rewrite list_lookup_insert_ne.
      * rewrite Hasame by done. rewrite Hael. apply list_lookup_insert. by eapply lookup_lt_Some. }
    eexists gn, al', (n_adj nd). do 3 (split; [done|]). split; [by destruct nd|].
    split; [done|]. split; [exact Hch|]. split_and!; try done.
    + intros c Hne. rewrite Hasame by done. rewrite Hael. destruct (decide (c = p)) as [->|].
      * rewrite list_lookup_insert by (by eapply lookup_lt_Some). by rewrite Hpe.
      * by rewrite list_lookup_insert_ne.
    + intros c Hnin Hne. rewrite Hasame by done. rewrite Hael. rewrite list_lookup_insert_ne; [done|].
      intros ->. apply Hnin. rewrite Hl1. set_solver.
Qed.
Global Arguments remove_adjacency : simpl never.

Definition N_of (E' : nat → nat → list nat) (N : nat → list (nat * nat)) (t : nat) : list (nat * nat) :=
  filter (λ p, E' t p.2 ≠ []) (N t).

Lemma list_filter_id {A} (P : A → Prop) `{!∀ x, Decision (P x)} (l : list A) :
  (∀ x, x ∈ l → P x) → filter P l = l.
Proof.
  induction l as [|x l IH]; intros HP; [done|].
  rewrite filter_cons_True by (apply HP; set_solver). f_equal. apply IH. set_solver.
Qed.

Lemma filter_one (L1 L2 : list (nat * nat)) a j (P : nat → Prop) `{!∀ x, Decision (P x)} :
  NoDup (L1 ++ (a, j) :: L2).*2 → (∀ t, t ∈ (L1 ++ (a, j) :: L2).*2 → P t ↔ t ≠ j) →
  filter (λ p, P p.2) (L1 ++ (a, j) :: L2) = L1 ++ L2.
Proof.
  intros Hnd HP. rewrite fmap_app, fmap_cons in Hnd, HP. simpl in *.
  apply NoDup_app in Hnd as (Hnd1 & Hd & Hnd2). apply NoDup_cons in Hnd2 as [Hj Hnd2].
  rewrite filter_app, filter_cons_False by (simpl; rewrite HP; [tauto|set_solver]).
  f_equal.
  - apply list_filter_id. intros [b t] Hin. simpl. apply HP.
    + apply elem_of_app. left. apply elem_of_list_fmap. by exists (b, t).
    + intros ->. apply (Hd j); [|set_solver]. apply elem_of_list_fmap. by exists (b, j).
  - apply list_filter_id. intros [b t] Hin. simpl. apply HP.
    + apply elem_of_app. right. apply elem_of_cons. right. apply elem_of_list_fmap. by exists (b, t).
    + intros ->. apply Hj. apply elem_of_list_fmap. by exists (b, j).
Qed.

Lemma N_of_id E' N t :
  (∀ a j, (a, j) ∈ N t → E' t j ≠ []) → N_of E' N t = N t.
Proof. intros H. apply list_filter_id. intros [a j] Hin. simpl. eauto. Qed.

Lemma elem_of_N_of E' N t a j : (a, j) ∈ N_of E' N t ↔ (a, j) ∈ N t ∧ E' t j ≠ [].
Proof. unfold N_of. rewrite elem_of_list_filter. simpl. tauto. Qed.

(** Removing a set of edges: what remains to be checked. *)
Lemma assemble_remove det det' g m N E LA g' m' E' LA' :
  grep det g m N E LA →
  mg_nodes m' = mg_nodes m →
  (∀ k v, mg_edges m' !! k = Some v → mg_edges m !! k = Some v) →
  fl_ok (g_nodes g') (dom (mg_nodes m')) →
  fl_ok (g_edges g') (dom (mg_edges m')) →
  fl_ok (g_adjs g') LA' →
  (∀ k, is_Some (mg_edges m' !! k) → fst <$> fl_elem (g_edges g') !! k = fst <$> fl_elem (g_edges g) !! k) →
  (∀ i j, chain (fl_nx (g_edges g')) (head (E' i j)) (E' i j)) →
  (∀ i j k, k ∈ E' i j ↔ joins m' k i j) →
  (∀ i j, NoDup (E' i j)) →
  (∀ i j, E' i j = E' j i) →
  (∀ i j, E' i j ≠ [] → E i j ≠ []) →
  (∀ i a j, (a, j) ∈ N i → E' i j ≠ [] →
     fst <$> fl_elem (g_adjs g') !! a = Some (Adj (Some j) (head (E' i j)))) →
  (∀ a, a ∈ LA' ↔ ∃ i j, (a, j) ∈ N_of E' N i) →
  (∀ i x nc, mg_nodes m !! i = Some (x, nc) →
    ∃ h nx, fl_elem (g_nodes g') !! i =
              Some (Node (Some x) nc (if decide (fst <$> det' = Some i) then None else h), nx) ∧
            (∀ h', det' = Some (i, h') → h = h') ∧
            chain (fl_nx (g_adjs g')) h (N_of E' N i).*1) →
  grep det' g' m' (N_of E' N) E' LA'.
Proof.
  intros R Hnodes Hsub Hnok Heok Haok Hekeep Hech HE' HE'nd HE'sym HE'E Hadj HLA' Hnode.
  assert (Hlive : ∀ i, live_node m i → live_node m' i).
  { intros i. unfold live_node. by rewrite Hnodes. }
  split; try done.
  - intros i x nc Hi. rewrite Hnodes in Hi. exact (Hnode _ _ _ Hi).
  - intros i Hi. rewrite Hnodes in Hi. unfold N_of. by rewrite (r_dead _ _ _ _ _ _ R _ Hi).
  - intros i a j Hin. apply elem_of_N_of in Hin as [Hin Hne].
    specialize (Hadj _ _ _ Hin Hne). apply fmap_Some in Hadj as ([ad nx] & He & Hd). simpl in Hd. subst ad.
    exists nx. split_and!; [done|done|]. destruct (r_adj _ _ _ _ _ _ R _ _ _ Hin) as (_ & _ & _ & Hl). auto.
  - intros k x i j Hk. destruct (r_edge _ _ _ _ _ _ R _ _ _ _ (Hsub _ _ Hk)) as (a0 & a1 & nx & He & H1 & H2).
    specialize (Hekeep k ltac:(eauto)). rewrite He in Hekeep. simpl in Hekeep.
    apply fmap_Some in Hekeep as ([ed nx'] & He' & Hd). simpl in Hd. subst ed. eauto 8.
  - intros i j Hne. pose proof (r_N _ _ _ _ _ _ R _ _ (HE'E _ _ Hne)) as Hin.
    apply elem_of_list_fmap in Hin as ([a j'] & -> & Hin). apply elem_of_list_fmap.
    exists (a, j'). split; [done|]. by apply elem_of_N_of.
  - intros i. pose proof (r_Nnd _ _ _ _ _ _ R i) as Hnd. unfold N_of.
    clear -Hnd. induction (N i) as [|[a j] L IH]; [done|].
    simpl in Hnd. apply NoDup_cons in Hnd as [Hj Hnd]. rewrite filter_cons. case_decide; [|auto].
    simpl. constructor; [|auto]. intros Hin. apply Hj.
    apply elem_of_list_fmap in Hin as ([b j'] & -> & Hin). apply elem_of_list_filter in Hin as [_ Hin].
    apply elem_of_list_fmap. by exists (b, j').
  - intros i i' a j j' H1 H2. apply elem_of_N_of in H1 as [H1 _], H2 as [H2 _].
    by eapply r_Nuniq.
Qed.

Lemma joins_pair m k x i j s t :
  mg_edges m !! k = Some (x, i, j) → joins m k s t ↔ pair_is i j s t.
Proof. intros Hk. unfold joins, pair_is. rewrite Hk. naive_solver. Qed.

Lemma joins_delete m k k' s t :
  joins (MGraph (mg_nodes m) (delete k (mg_edges m))) k' s t ↔ k' ≠ k ∧ joins m k' s t.
Proof.
  unfold joins. simpl. setoid_rewrite lookup_delete_Some. naive_solver.
Qed.

(** The pair of adjacencies between [i] and [j]. *)
Lemma adj_between det g m N E LA i j :
  grep det g m N E LA → E i j ≠ [] → ∃ a L1 L2, N i = L1 ++ (a, j) :: L2 ∧ j ∉ L1.*2.
Proof.
  intros R Hne. apply (r_N _ _ _ _ _ _ R) in Hne.
  apply elem_of_list_fmap in Hne as ([a j'] & -> & Hin).
  apply elem_of_list_split in Hin as (L1 & L2 & HN). exists a, L1, L2. split; [done|].
  pose proof (r_Nnd _ _ _ _ _ _ R i) as Hnd. rewrite HN, fmap_app, fmap_cons in Hnd. simpl in Hnd.
  apply NoDup_app in Hnd as (_ & Hd & _). intros Hin. apply (Hd _ Hin). set_solver.
Qed.

(** ** remove_edge *)
Lemma rae_keep g src a k aj f anx ed enx :
  fl_elem (g_adjs g) !! a = Some (Adj aj (Some f), anx) → f ≠ k →
  fl_elem (g_edges g) !! k = Some (ed, enx) →
  remove_adjacency_edge g src a k = Ok g.
Proof.
  intros Ha Hf Hk. unfold remove_adjacency_edge.
  rewrite (fl_get_elem _ _ _ Ha). simpl. rewrite (fl_get_elem _ _ _ Hk). simpl.
  rewrite decide_False by congruence. simpl. rewrite (fl_get_elem _ _ _ Ha). done.
Qed.

Lemma rae_move g LA src a k aj anx ed z :
  fl_ok (g_adjs g) LA → a ∈ LA →
  fl_elem (g_adjs g) !! a = Some (Adj aj (Some k), anx) →
  fl_elem (g_edges g) !! k = Some (ed, Some z) →
  ∃ l, remove_adjacency_edge g src a k = Ok (set_adjs g l) ∧ fl_ok l LA ∧
       fl_elem l = <[a := (Adj aj (Some z), anx)]> (fl_elem (g_adjs g)).
Proof.
  intros Hok HaLA Ha Hk. unfold remove_adjacency_edge.
  rewrite (fl_get_elem _ _ _ Ha). simpl. rewrite (fl_get_elem _ _ _ Hk). simpl.
  rewrite decide_True by done.
  destruct (upd_a_edge_spec g LA a (Adj aj (Some k)) anx (Some z)) as (l & -> & Hok' & Hel); [done|done|done|].
  simpl. assert (He : fl_elem l !! a = Some (Adj aj (Some z), anx)).
  { rewrite Hel. apply list_lookup_insert. by eapply lookup_lt_Some. }
  rewrite (fl_get_elem _ _ _ He). simpl. eauto.
Qed.

Lemma rae_drop g s a k anx aj ed nd nnx NL LA l1 l2 :
  fl_ok (g_nodes g) NL → s ∈ NL → fl_elem (g_nodes g) !! s = Some (nd, nnx) →
  fl_ok (g_adjs g) LA → (∀ c, c ∈ l1 ++ a :: l2 → c ∈ LA) → NoDup (l1 ++ a :: l2) →
  chain (fl_nx (g_adjs g)) (n_adj nd) (l1 ++ a :: l2) →
  fl_elem (g_adjs g) !! a = Some (Adj aj (Some k), anx) →
  fl_elem (g_edges g) !! k = Some (ed, None) →
  ∃ nl al h', remove_adjacency_edge g (Some s) a k = Ok (Graph nl (g_edges g) al) ∧
    fl_ok nl NL ∧ fl_ok al (LA ∖ {[a]}) ∧
    fl_elem nl !! s = Some (Node (n_ent nd) (n_nc nd) h', nnx) ∧
    (∀ t, t ≠ s → fl_elem nl !! t = fl_elem (g_nodes g) !! t) ∧
    chain (fl_nx al) h' (l1 ++ l2) ∧
    (∀ c, c ≠ a → fst <$> fl_elem al !! c = fst <$> fl_elem (g_adjs g) !! c) ∧
    (∀ c, c ∉ l1 → c ≠ a → fl_elem al !! c = fl_elem (g_adjs g) !! c) ∧
    (fl_clean node_dflt (g_nodes g) NL → fl_clean node_dflt nl NL).
Proof.
  intros Hnok Hs Hse Haok HLA Hnd Hc Ha Hk. unfold remove_adjacency_edge.
  rewrite (fl_get_elem _ _ _ Ha). simpl. rewrite (fl_get_elem _ _ _ Hk). simpl.
  rewrite decide_True by done.
  destruct (upd_a_edge_spec g LA a (Adj aj (Some k)) anx None) as (l & -> & Hok' & Hel);
    [done|apply HLA; set_solver|done|].
  simpl. assert (He : fl_elem l !! a = Some (Adj aj None, anx)).
  { rewrite Hel. apply list_lookup_insert. by eapply lookup_lt_Some. }
  rewrite (fl_get_elem _ _ _ He). simpl.
  destruct (remove_adjacency_low (set_adjs g l) s a anx aj nd nnx NL LA l1 l2)
    as (nl & al & h' & -> & H1 & H2 & H3 & H4 & H5 & H6 & H7 & H8); try done.
  { simpl. eapply chain_ext; [|exact Hc]. intros y Hy. unfold fl_nx. rewrite Hel.
    destruct (decide (y = a)) as [->|].
    - rewrite list_lookup_insert by (by eapply lookup_lt_Some). by rewrite Ha.
    - by rewrite list_lookup_insert_ne. }
  exists nl, al, h'. simpl in *. split; [done|]. do 4 (split; [done|]). split; [done|].
  split_and!; [| |done].
  - intros c Hc'. rewrite H6 by done. rewrite Hel. by rewrite list_lookup_insert_ne.
  - intros c Hc1 Hc2. rewrite H7 by done. rewrite Hel. by rewrite list_lookup_insert_ne.
Qed.
Global Arguments remove_adjacency_edge : simpl never.

Definition E_del (E : nat → nat → list nat) (k s t : nat) : list nat := filter (λ y, y ≠ k) (E s t).

Lemma E_del_split (l1 l2 : list nat) k :
  NoDup (l1 ++ k :: l2) → filter (λ y, y ≠ k) (l1 ++ k :: l2) = l1 ++ l2.
Proof.
  intros Hnd. apply NoDup_app in Hnd as (_ & Hd & Hnd). apply NoDup_cons in Hnd as [Hk _].
  rewrite filter_app, filter_cons_False by tauto. f_equal; apply list_filter_id.
  - intros y Hy ->. apply (Hd k); set_solver.
  - intros y Hy ->. done.
Qed.

Lemma remove_edge_spec g m k :
  ginv g m → is_Some (mg_edges m !! k) →
  ∃ g', remove_edge g k = Ok g' ∧
    let m' := MGraph (mg_nodes m) (delete k (mg_edges m)) in
    ginv g' m' ∧ (gclean g m → gclean g' m').
Proof.
  intros (N & E & LA & R) [[[x i] j] Hk]. unfold remove_edge.
  destruct (r_edge _ _ _ _ _ _ R _ _ _ _ Hk) as (ea0 & ea1 & knx & Hke & [[xi nci] Hi] & [[xj ncj] Hj]).
  rewrite (fl_get_elem _ _ _ Hke). simpl.
  destruct (grep_node_plain _ _ _ _ _ _ _ _ R Hi) as (hi & nxi & Hei & Hci).
  destruct (grep_node_plain _ _ _ _ _ _ _ _ R Hj) as (hj & nxj & Hej & Hcj).
  rewrite (fl_get_elem _ _ _ Hei). simpl.
  assert (HkE : k ∈ E i j). { apply (r_E _ _ _ _ _ _ R). exists x. auto. }
  apply elem_of_list_split in HkE as (l1 & l2 & HEij).
  assert (HEne : E i j ≠ []). { rewrite HEij. by destruct l1. }
  assert (HEji : E j i = E i j) by apply (r_Esym _ _ _ _ _ _ R).
  pose proof (r_End _ _ _ _ _ _ R i j) as HEnd.
  pose proof (r_echain _ _ _ _ _ _ R i j) as HEc.
  assert (Hknx : knx = head l2).
  { rewrite HEij in HEc. apply chain_split in HEc as (_ & n & Hn & Hc).
    unfold fl_nx in Hn. rewrite Hke in Hn. simpl in Hn. simplify_eq. by eapply chain_head. }
  (* edge lists after the removal *)
  set (m' := MGraph (mg_nodes m) (delete k (mg_edges m))).
  assert (HE'pair : ∀ s t, pair_is i j s t → E_del E k s t = l1 ++ l2).
  { intros s t Hp. assert (E s t = E i j) as Hst.
    { destruct Hp as [[-> ->]|[-> ->]]; done. }
    unfold E_del. rewrite Hst, HEij. apply E_del_split. by rewrite <- HEij. }
  assert (HE'other : ∀ s t, ¬ pair_is i j s t → E_del E k s t = E s t).
  { intros s t Hp. apply list_filter_id. intros y Hy ->. apply Hp.
    apply (r_E _ _ _ _ _ _ R) in Hy. by rewrite joins_pair in Hy. }
  assert (HE'E : ∀ s t k', k' ∈ E_del E k s t ↔ joins m' k' s t).
  { intros s t k'. unfold m'. rewrite joins_delete, <- (r_E _ _ _ _ _ _ R).
    unfold E_del. by rewrite elem_of_list_filter. }
  assert (HE'nd : ∀ s t, NoDup (E_del E k s t)).
  { intros s t. apply NoDup_filter, (r_End _ _ _ _ _ _ R). }
  assert (HE'sym : ∀ s t, E_del E k s t = E_del E k t s).
  { intros s t. unfold E_del. by rewrite (r_Esym _ _ _ _ _ _ R). }
  assert (HE'ne : ∀ s t, E_del E k s t ≠ [] → E s t ≠ []).
  { intros s t Hne Hst. unfold E_del in Hne. by rewrite Hst in Hne. }
  (* chains of edges after the removal *)
  assert (Hech : ∀ el', chain (fl_nx el') (head (l1 ++ l2)) (l1 ++ l2) →
     (∀ k', k' ∉ E i j → fl_elem el' !! k' = fl_elem (g_edges g) !! k') →
     ∀ s t, chain (fl_nx el') (head (E_del E k s t)) (E_del E k s t)).
  { intros el' Hc' Hs s t. destruct (decide (pair_is i j s t)) as [Hp|Hp].
    - by rewrite HE'pair.
    - rewrite HE'other by done. eapply chain_ext; [|apply (r_echain _ _ _ _ _ _ R)].
      intros y Hy. unfold fl_nx. rewrite Hs; [done|]. intros Hy'.
      apply (r_E _ _ _ _ _ _ R) in Hy, Hy'. destruct (joins_ends _ _ _ _ _ _ Hy' Hy) as [[-> ->]|[-> ->]];
      apply Hp; unfold pair_is; auto. }
  assert (HLAof : ∀ t a u, (a, u) ∈ N t → a ∈ LA).
  { intros t a u Ha. apply (r_LA _ _ _ _ _ _ R). eauto. }
  (* the adjacencies *)
  destruct (find_adj_strict_spec _ _ (N i) j (S (fl_range (g_adjs g))) Hci) as (L1 & a & L2 & HN & HjL1 & ->).
  { exact (r_cells _ _ _ _ _ _ _ R). } { pose proof (r_Nlen _ _ _ _ _ _ i R). lia. }
  { by apply (r_N _ _ _ _ _ _ R). }
  simpl. assert (Haj : (a, j) ∈ N i) by (rewrite HN; set_solver).
  destruct (r_adj _ _ _ _ _ _ R _ _ _ Haj) as (anx & Hae & _ & _).
  rewrite (fl_get_elem _ _ _ Hae). simpl.
  assert (HaLA : a ∈ LA) by eauto.
  assert (Hbx : ∃ b M1 M2 bnx, N j = M1 ++ (b, i) :: M2 ∧ i ∉ M1.*2 ∧
    fl_elem (g_adjs g) !! b = Some (Adj (Some i) (head (E i j)), bnx) ∧ b ∈ LA ∧ (b = a ↔ i = j) ∧
    (i ≠ j → find_adj_strict (g_adjs g) (S (fl_range (g_adjs g))) hj i = Ok b)).
  { destruct (find_adj_strict_spec _ _ (N j) i (S (fl_range (g_adjs g))) Hcj) as (M1 & b & M2 & HNj & HiM1 & Hf).
    { exact (r_cells _ _ _ _ _ _ _ R). } { pose proof (r_Nlen _ _ _ _ _ _ j R). lia. }
    { apply (r_N _ _ _ _ _ _ R). by rewrite HEji. }
    assert (Hbj : (b, i) ∈ N j) by (rewrite HNj; (clear; set_solver)).
    destruct (r_adj _ _ _ _ _ _ R _ _ _ Hbj) as (bnx & Hbe & _ & _). rewrite HEji in Hbe.
    exists b, M1, M2, bnx. split_and!; try done; [eauto|]. split.
    - intros ->. by destruct (r_Nuniq _ _ _ _ _ _ R _ _ _ _ _ Haj Hbj).
    - intros ->. eapply NoDup_fst_snd_eq; [apply (r_Nnd _ _ _ _ _ _ R)| |]; eauto. }
  destruct Hbx as (b & M1 & M2 & bnx & HNj & HiM1 & Hbe & HbLA & Hba & Hfb).
  assert (Hbj : (b, i) ∈ N j) by (rewrite HNj; (clear; set_solver)).
  assert (Hothers : ∀ s c t, (c, t) ∈ N s → c ≠ a → c ≠ b → ¬ pair_is i j s t).
  { intros s c t Hin Hca Hcb [[-> ->]|[-> ->]].
    - apply Hca. eapply NoDup_fst_snd_eq; [apply (r_Nnd _ _ _ _ _ _ R)| |]; eauto.
    - apply Hcb. eapply NoDup_fst_snd_eq; [apply (r_Nnd _ _ _ _ _ _ R)| |]; eauto. }
  destruct l1 as [|f l1].
  - (* the edge is the first of its list *)
    simpl in HEij. destruct l2 as [|z l2].
    + (* and the only one *)
      simpl in Hknx. subst knx. rewrite HEij. rewrite HEij in Hae, Hbe. simpl in Hae, Hbe |- *.
      assert (HE'nil : ∀ s t, pair_is i j s t → E_del E k s t = []) by exact HE'pair.
      assert (HkLE : k ∈ dom (mg_edges m)) by (by eapply elem_of_dom_2).
      assert (HNdisj : ∀ s t c, s ≠ t → c ∈ (N s).*1 → c ∉ (N t).*1).
      { intros s t c Hst H1 H2. apply elem_of_list_fmap in H1 as ([c1 u1] & -> & H1).
        apply elem_of_list_fmap in H2 as ([c2 u2] & Heq & H2). simpl in Heq. subst.
        by destruct (r_Nuniq _ _ _ _ _ _ R _ _ _ _ _ H1 H2). }
      assert (HNid : ∀ t, t ≠ i → t ≠ j → N_of (E_del E k) N t = N t).
      { intros t Hti Htj. apply N_of_id. intros c u Hin. rewrite HE'other.
        - by destruct (r_adj _ _ _ _ _ _ R _ _ _ Hin) as (_ & _ & ? & _).
        - intros [[? ?]|[? ?]]; done. }
      assert (HNi : N_of (E_del E k) N i = L1 ++ L2).
      { unfold N_of. rewrite HN. refine (filter_one L1 L2 a j (λ y, E_del E k i y ≠ []) _ _).
        - rewrite <- HN. apply (r_Nnd _ _ _ _ _ _ R).
        - intros t Ht. split.
          + intros Hne ->. apply Hne, HE'nil. left. done.
          + intros Hne. rewrite HE'other.
            * rewrite <- HN in Ht. apply elem_of_list_fmap in Ht as ([c u] & -> & Hin).
              by destruct (r_adj _ _ _ _ _ _ R _ _ _ Hin) as (_ & _ & ? & _).
            * intros [[? ?]|[? ?]]; naive_solver. }
      assert (HNj' : N_of (E_del E k) N j = M1 ++ M2).
      { unfold N_of. rewrite HNj. refine (filter_one M1 M2 b i (λ y, E_del E k j y ≠ []) _ _).
        - rewrite <- HNj. apply (r_Nnd _ _ _ _ _ _ R).
        - intros t Ht. split.
          + intros Hne ->. apply Hne, HE'nil. right. done.
          + intros Hne. rewrite HE'other.
            * rewrite <- HNj in Ht. apply elem_of_list_fmap in Ht as ([c u] & -> & Hin).
              by destruct (r_adj _ _ _ _ _ _ R _ _ _ Hin) as (_ & _ & ? & _).
            * intros [[? ?]|[? ?]]; naive_solver. }
      (* what the two calls must establish *)
      assert (Hgoal : ∀ nl al, fl_ok nl (dom (mg_nodes m)) → fl_ok al (LA ∖ {[b]} ∖ {[a]}) →
        (∀ c, c ≠ a → c ≠ b → fst <$> fl_elem al !! c = fst <$> fl_elem (g_adjs g) !! c) →
        (∀ t y nc, mg_nodes m !! t = Some (y, nc) →
          ∃ h nx, fl_elem nl !! t = Some (Node (Some y) nc h, nx) ∧
                  chain (fl_nx al) h (N_of (E_del E k) N t).*1) →
        (fl_clean node_dflt (g_nodes g) (dom (mg_nodes m)) → fl_clean node_dflt nl (dom (mg_nodes m))) →
        ∃ g', (g0 ← (if decide (Some k = Some k) then Ok (Graph nl (g_edges g) al)
               else p ← find_prev (g_edges (Graph nl (g_edges g) al)) (fl_range (g_edges (Graph nl (g_edges g) al))) (Some k) k;
                    upd_e_next (Graph nl (g_edges g) al) (Some p) None);
               l ← fl_remove edge_dflt (g_edges g0) k; Ok (set_edges g0 l)) = Ok g' ∧
          ginv g' m' ∧ (gclean g m → gclean g' m')).
      { intros nl al Hnok Haok Hadj Hnode Hcl. rewrite decide_True by done. simpl.
        destruct (fl_remove_spec edge_dflt _ _ k (r_eok _ _ _ _ _ _ R) HkLE) as (el' & Hrem & Heok' & Hesame & _).
        rewrite Hrem. simpl. eexists. split; [done|]. split; [|done].
        exists (N_of (E_del E k) N), (E_del E k), (LA ∖ {[b]} ∖ {[a]}).
        eapply (assemble_remove None None g m N E LA); try done; simpl.
        - intros k' v Hk'. by apply lookup_delete_Some in Hk' as [_ ?].
        - by rewrite dom_delete_L.
        - intros k' [v Hk']. apply lookup_delete_Some in Hk' as [Hne Hk']. by rewrite Hesame.
        - apply Hech; [done|]. intros k' Hk'. apply Hesame. intros ->. apply Hk'. rewrite HEij. set_solver.
        - intros s c t Hin Hne. destruct (r_adj _ _ _ _ _ _ R _ _ _ Hin) as (nx & He & _ & _).
          assert (Hnp : ¬ pair_is i j s t) by (intros Hp; by apply Hne, HE'nil).
          rewrite Hadj.
          + rewrite He. simpl. by rewrite HE'other.
          + intros ->. destruct (r_Nuniq _ _ _ _ _ _ R _ _ _ _ _ Hin Haj) as [-> ->]. apply Hnp. by left.
          + intros ->. destruct (r_Nuniq _ _ _ _ _ _ R _ _ _ _ _ Hin Hbj) as [-> ->]. apply Hnp. by right.
        - intros c. rewrite !elem_of_difference, !elem_of_singleton, (r_LA _ _ _ _ _ _ R).
          setoid_rewrite elem_of_N_of. split.
          + intros [[(s & t & Hin) Hcb] Hca]. exists s, t. split; [done|].
            rewrite HE'other by (by eapply Hothers).
            by destruct (r_adj _ _ _ _ _ _ R _ _ _ Hin) as (_ & _ & ? & _).
          + intros (s & t & Hin & Hne).
            assert (Hnp : ¬ pair_is i j s t) by (intros Hp; by apply Hne, HE'nil).
            split_and!; [eauto| |].
            * intros ->. destruct (r_Nuniq _ _ _ _ _ _ R _ _ _ _ _ Hin Hbj) as [-> ->]. apply Hnp. by right.
            * intros ->. destruct (r_Nuniq _ _ _ _ _ _ R _ _ _ _ _ Hin Haj) as [-> ->]. apply Hnp. by left.
        - intros t y nc Ht. destruct (Hnode _ _ _ Ht) as (h & nx & ? & ?). exists h, nx. done. }
      assert (HNi1 : (N i).*1 = L1.*1 ++ a :: L2.*1) by (by rewrite HN, fmap_app, fmap_cons).
      assert (HNj1 : (N j).*1 = M1.*1 ++ b :: M2.*1) by (by rewrite HNj, fmap_app, fmap_cons).
      assert (HNLA : ∀ t c, c ∈ (N t).*1 → c ∈ LA).
      { intros t c Hc. apply elem_of_list_fmap in Hc as ([c' u] & -> & Hin). eauto. }
      destruct (decide (j = i)) as [Hji|Hji].
      * (* self loop *)
        subst j. assert (b = a) as -> by (by apply Hba). simpl.
        destruct (rae_drop g i a k anx (Some i) (Edge (Some x) (Some i) (Some i) ea0 ea1) (Node (Some xi) nci hi) nxi (dom (mg_nodes m)) LA L1.*1 L2.*1
          (r_nok _ _ _ _ _ _ R)) as (nl & al & h' & -> & Hnok & Haok & Hnli & Hnlo & Hch & Hf1 & Hf2 & Hcl).
        { by eapply elem_of_dom_2. } { done. } { exact (r_aok _ _ _ _ _ _ R). }
        { intros c Hc. apply (HNLA i). by rewrite HNi1. }
        { rewrite <- HNi1. by eapply r_Nnd1. } { simpl. by rewrite <- HNi1. } { done. } { done. }
        apply Hgoal; try done.
        -- by replace (LA ∖ {[a]} ∖ {[a]}) with (LA ∖ {[a]}) by set_solver.
        -- intros c Hca _. by apply Hf1.
        -- intros t y nc Ht. destruct (decide (t = i)) as [->|Hti].
           ++ rewrite Hi in Ht. simplify_eq. rewrite HNi, fmap_app. eauto.
           ++ rewrite Hnlo by done. rewrite HNid by done.
              destruct (grep_node_plain _ _ _ _ _ _ _ _ R Ht) as (h & nx & He & Hc). exists h, nx. split; [done|].
              eapply chain_ext; [|exact Hc]. intros c Hc'. unfold fl_nx.
              assert (c ∉ (N i).*1) as Hni by (by eapply HNdisj). rewrite HNi1 in Hni.
              rewrite Hf2; [done| |]; (clear - Hni; set_solver).
      * rewrite (fl_get_elem _ _ _ Hej). simpl. rewrite Hfb by done. simpl.
        rewrite (fl_get_elem _ _ _ Hbe). simpl. rewrite bool_decide_true by done. simpl.
        assert (Hne : b ≠ a) by (intros Heq; apply Hji; symmetry; by apply Hba).
        destruct (rae_drop g j b k bnx (Some i) (Edge (Some x) (Some i) (Some j) ea0 ea1) (Node (Some xj) ncj hj) nxj (dom (mg_nodes m)) LA M1.*1 M2.*1
          (r_nok _ _ _ _ _ _ R)) as (nl & al & h' & -> & Hnok & Haok & Hnlj & Hnlo & Hch & Hf1 & Hf2 & Hcl).
        { by eapply elem_of_dom_2. } { done. } { exact (r_aok _ _ _ _ _ _ R). }
        { intros c Hc. apply (HNLA j). by rewrite HNj1. }
        { rewrite <- HNj1. by eapply r_Nnd1. } { simpl. by rewrite <- HNj1. } { done. } { done. }
        simpl.
        assert (Hsame1 : ∀ c, c ∉ (N j).*1 → fl_elem al !! c = fl_elem (g_adjs g) !! c).
        { intros c Hc. rewrite HNj1 in Hc. apply Hf2; (clear - Hc; set_solver). }
        assert (Haj1 : a ∈ (N i).*1) by (rewrite HNi1; (clear; set_solver)).
        assert (Hbj1 : b ∈ (N j).*1) by (rewrite HNj1; (clear; set_solver)).
        destruct (rae_drop (Graph nl (g_edges g) al) i a k anx (Some j)
          (Edge (Some x) (Some i) (Some j) ea0 ea1) (Node (Some xi) nci hi) nxi
          (dom (mg_nodes m)) (LA ∖ {[b]}) L1.*1 L2.*1)
          as (nl2 & al2 & h2' & -> & Hnok2 & Haok2 & Hnli & Hnlo2 & Hch2 & Hf12 & Hf22 & Hcl2).
        { done. } { by eapply elem_of_dom_2. } { simpl. by rewrite Hnlo. } { done. }
        { intros c Hc. rewrite <- HNi1 in Hc. apply elem_of_difference. split; [by eapply HNLA|].
          intros ->%elem_of_singleton. eapply (HNdisj i j b); eauto. }
        { rewrite <- HNi1. by eapply r_Nnd1. }
        { simpl. rewrite <- HNi1. eapply chain_ext; [|exact Hci]. intros c Hc. unfold fl_nx.
          rewrite Hsame1; [done|]. eapply HNdisj; [|exact Hc]. auto. }
        { simpl. rewrite Hsame1; [done|]. eapply (HNdisj i j); [|exact Haj1]. auto. }
        { done. }
        simpl. apply Hgoal; try done.
        -- intros c Hca Hcb. rewrite Hf12 by done. simpl. by apply Hf1.
        -- assert (Hsame2 : ∀ c, c ∉ (N i).*1 → fl_elem al2 !! c = fl_elem al !! c).
           { intros c Hc. rewrite HNi1 in Hc. apply Hf22; (clear - Hc; set_solver). }
           intros t y nc Ht. destruct (decide (t = i)) as [->|Hti]; [|destruct (decide (t = j)) as [->|Htj]].
           ++ rewrite Hi in Ht. simplify_eq. rewrite HNi, fmap_app. simpl in *. eauto.
           ++ rewrite Hj in Ht. simplify_eq. rewrite Hnlo2 by done. simpl. rewrite Hnlj. simpl.
              eexists _, _. split; [done|]. rewrite HNj', fmap_app.
              eapply chain_ext; [|exact Hch]. intros c Hc. unfold fl_nx. rewrite Hsame2; [done|].
              eapply (HNdisj j i); [done|]. rewrite HNj1. (clear - Hc; set_solver).
           ++ rewrite Hnlo2 by done. simpl. rewrite Hnlo by done. rewrite HNid by done.
              destruct (grep_node_plain _ _ _ _ _ _ _ _ R Ht) as (h & nx & He & Hc). exists h, nx. split; [done|].
              eapply chain_ext; [|exact Hc]. intros c Hc'. unfold fl_nx.
              rewrite Hsame2 by (by eapply HNdisj). rewrite Hsame1 by (by eapply HNdisj). done.
        -- intros Hc. by apply Hcl2, Hcl.
    + (* the head of the list moves to the next edge *)
      simpl in Hknx. subst knx. rewrite HEij. rewrite HEij in Hae, Hbe. simpl in Hae, Hbe |- *.
      assert (HkLE : k ∈ dom (mg_edges m)) by (by eapply elem_of_dom_2).
      assert (∃ al, (if decide (j = i) then Ok g
         else n1 ← fl_get (g_nodes g) (Some j);
           a1 ← find_adj_strict (g_adjs g) (S (fl_range (g_adjs g))) (n_adj n1.1) i;
           ae1 ← fl_get (g_adjs g) (Some a1);
           _ ← assert_ (bool_decide (Some k = a_edge ae1.1));
           remove_adjacency_edge g (Some j) a1 k) = Ok (set_adjs g al) ∧ fl_ok al LA ∧
           fl_elem al !! a = Some (Adj (Some j) (Some k), anx) ∧
           (i ≠ j → fl_elem al !! b = Some (Adj (Some i) (Some z), bnx)) ∧
           (∀ c, c ≠ a → c ≠ b → fl_elem al !! c = fl_elem (g_adjs g) !! c))
        as (al & -> & Haok & Hala & Halb & Halo).
      { case_decide as Hji.
        - exists (g_adjs g). destruct g; simpl in *. split_and!; try done. exact (r_aok _ _ _ _ _ _ R).
        - rewrite (fl_get_elem _ _ _ Hej). simpl. rewrite Hfb by done. simpl.
          rewrite (fl_get_elem _ _ _ Hbe). simpl. rewrite bool_decide_true by done. simpl.
          assert (Hne : b ≠ a) by (intros Heq; apply Hji; symmetry; by apply Hba).
          destruct (rae_move g LA (Some j) b k _ _ _ _ (r_aok _ _ _ _ _ _ R) HbLA Hbe Hke) as (al & -> & Hok & Hel).
          exists al. split; [done|]. split; [done|]. rewrite Hel. split_and!.
          + by rewrite list_lookup_insert_ne.
          + intros _. apply list_lookup_insert. by eapply lookup_lt_Some.
          + intros c Hca Hcb. by rewrite list_lookup_insert_ne. }
      simpl.
      destruct (rae_move (set_adjs g al) LA (Some i) a k _ _ _ _ Haok HaLA Hala Hke) as (al2 & -> & Haok2 & Hel2).
      simpl. rewrite decide_True by done. simpl.
      assert (Ha2 : fl_elem al2 !! a = Some (Adj (Some j) (Some z), anx)).
      { rewrite Hel2. apply list_lookup_insert. by eapply lookup_lt_Some. }
      assert (Hb2 : ∃ nx, fl_elem al2 !! b = Some (Adj (Some i) (Some z), nx) ∧ nx = bnx).
      { destruct (decide (i = j)) as [->|Hne].
        - assert (b = a) as -> by (by apply Hba). exists anx. split; [done|]. congruence.
        - exists bnx. split; [|done]. rewrite Hel2. rewrite list_lookup_insert_ne by (intros ->; by apply Hne, Hba).
          simpl. auto. }
      destruct Hb2 as (? & Hb2 & ->).
      assert (Ho2 : ∀ c, c ≠ a → c ≠ b → fl_elem al2 !! c = fl_elem (g_adjs g) !! c).
      { intros c Hca Hcb. rewrite Hel2. rewrite list_lookup_insert_ne by done. simpl. auto. }
      destruct (fl_remove_spec edge_dflt _ _ k (r_eok _ _ _ _ _ _ R) HkLE) as (el' & Hrem & Heok' & Hesame & _).
      rewrite Hrem. simpl. eexists. split; [done|]. split; [|done].
      exists (N_of (E_del E k) N), (E_del E k), LA.
      assert (Hall : ∀ s t, E s t ≠ [] → E_del E k s t ≠ []).
      { intros s t Hne. destruct (decide (pair_is i j s t)); [by rewrite HE'pair|by rewrite HE'other]. }
      assert (HNid : ∀ t, N_of (E_del E k) N t = N t).
      { intros t. apply N_of_id. intros c u Hin. apply Hall.
        destruct (r_adj _ _ _ _ _ _ R _ _ _ Hin) as (_ & _ & ? & _). done. }
      eapply (assemble_remove None None g m N E LA); try done; simpl.
      * intros k' v Hk'. by apply lookup_delete_Some in Hk' as [_ ?].
      * exact (r_nok _ _ _ _ _ _ R).
      * by rewrite dom_delete_L.
      * intros k' [v Hk']. apply lookup_delete_Some in Hk' as [Hne Hk']. by rewrite Hesame.
      * apply Hech.
        -- rewrite HEij in HEc, HEnd. cbn in HEc. destruct HEc as (_ & n & Hn & Hc).
           unfold fl_nx in Hn. rewrite Hke in Hn. cbn in Hn. simplify_eq.
           cbn [app head]. eapply chain_ext; [|exact Hc]. intros y Hy. unfold fl_nx. rewrite Hesame; [done|].
           apply NoDup_cons in HEnd as [Hnk _]. by intros ->.
        -- intros k' Hk'. apply Hesame. intros ->. apply Hk'. rewrite HEij. set_solver.
      * intros s c t Hin Hne. destruct (r_adj _ _ _ _ _ _ R _ _ _ Hin) as (nx & He & _ & _).
        destruct (decide (pair_is i j s t)) as [Hp|Hp].
        -- rewrite HE'pair by done. simpl. destruct Hp as [[-> ->]|[-> ->]].
           ++ assert (c = a) as ->. { eapply NoDup_fst_snd_eq; [apply (r_Nnd _ _ _ _ _ _ R)| |]; eauto. }
              by rewrite Ha2.
           ++ assert (c = b) as ->. { eapply NoDup_fst_snd_eq; [apply (r_Nnd _ _ _ _ _ _ R)| |]; eauto. }
              by rewrite Hb2.
        -- rewrite HE'other by done. rewrite Ho2; [by rewrite He| |].
           ++ intros ->. destruct (r_Nuniq _ _ _ _ _ _ R _ _ _ _ _ Hin Haj) as [-> ->]. apply Hp. by left.
           ++ intros ->. destruct (r_Nuniq _ _ _ _ _ _ R _ _ _ _ _ Hin Hbj) as [-> ->]. apply Hp. by right.
      * intros c. setoid_rewrite HNid. apply (r_LA _ _ _ _ _ _ R).
      * intros t y nc Ht. rewrite HNid. destruct (r_node _ _ _ _ _ _ R _ _ _ Ht) as (h & nx & He & Hd & Hc).
        exists h, nx. split; [done|]. split; [done|]. eapply chain_ext; [|exact Hc].
        intros c Hc'. unfold fl_nx. destruct (decide (c = a)) as [->|]; [|destruct (decide (c = b)) as [->|]].
        -- by rewrite Ha2, Hae.
        -- by rewrite Hb2, Hbe.
        -- by rewrite Ho2.
  - (* a predecessor is relinked *)
    rewrite HEij. rewrite HEij in Hae, Hbe. simpl in Hae, Hbe |- *.
    assert (Hfk : f ≠ k).
    { intros ->. rewrite HEij in HEnd. simpl in HEnd. apply NoDup_cons in HEnd as [Hn _]. set_solver. }
    assert ((if decide (j = i) then Ok g
       else n1 ← fl_get (g_nodes g) (Some j);
         a1 ← find_adj_strict (g_adjs g) (S (fl_range (g_adjs g))) (n_adj n1.1) i;
         ae1 ← fl_get (g_adjs g) (Some a1);
         _ ← assert_ (bool_decide (Some f = a_edge ae1.1));
         remove_adjacency_edge g (Some j) a1 k) = Ok g) as ->.
    { case_decide; [done|]. rewrite (fl_get_elem _ _ _ Hej). simpl. rewrite Hfb by done. simpl.
      rewrite (fl_get_elem _ _ _ Hbe). simpl. rewrite bool_decide_true by done. simpl.
      eapply rae_keep; eauto. }
    simpl. rewrite (rae_keep _ _ _ _ _ _ _ _ _ Hae Hfk Hke). simpl.
    rewrite decide_False by congruence.
    rewrite HEij in HEc, HEnd.
    assert (Hfuel : length (f :: l1) ≤ fl_range (g_edges g)).
    { pose proof (r_Elen _ _ _ _ _ _ i j R) as Hl. rewrite HEij in Hl. rewrite app_length in Hl. lia. }
    destruct (find_prev_spec _ _ _ _ _ _ HEc HEnd ltac:(done) Hfuel) as (p & l0 & Hl1 & Hfp).
    simpl in Hfp. rewrite Hfp. simpl.
    assert (HpE : p ∈ E i j). { rewrite HEij, Hl1. set_solver. }
    assert (Hpk : p ≠ k).
    { intros ->. rewrite Hl1, <- app_assoc in HEnd. simpl in HEnd.
      apply NoDup_app in HEnd as (_ & _ & Hnd). apply NoDup_cons in Hnd as [Hn _]. set_solver. }
    assert (Hpdom : p ∈ dom (mg_edges m)).
    { apply (r_E _ _ _ _ _ _ R) in HpE as (y & [Hy|Hy]); by eapply elem_of_dom_2. }
    destruct (chain_lookup _ _ _ p HEc) as [pn Hpn]. { rewrite Hl1. set_solver. }
    unfold fl_nx in Hpn. apply fmap_Some in Hpn as ([pd pn'] & Hpe & ->).
    destruct (upd_e_next_spec g _ p pd pn' knx (r_eok _ _ _ _ _ _ R) Hpdom Hpe) as (el & -> & Heok & Heel).
    simpl.
    destruct (fl_remove_spec edge_dflt _ _ k Heok) as (el' & Hrem & Heok' & Hesame & _).
    { by eapply elem_of_dom_2. }
    rewrite Hrem. simpl. eexists. split; [done|]. split; [|done].
    exists (N_of (E_del E k) N), (E_del E k), LA.
    assert (Hall : ∀ s t, E s t ≠ [] → E_del E k s t ≠ []).
    { intros s t Hne. destruct (decide (pair_is i j s t)); [by rewrite HE'pair|by rewrite HE'other]. }
    assert (HNid : ∀ t, N_of (E_del E k) N t = N t).
    { intros t. apply N_of_id. intros c u Hin. apply Hall.
      destruct (r_adj _ _ _ _ _ _ R _ _ _ Hin) as (_ & _ & ? & _). done. }
    eapply (assemble_remove None None g m N E LA); try done.
    + intros k' v Hk'. simpl in Hk'. by apply lookup_delete_Some in Hk' as [_ ?].
    + exact (r_nok _ _ _ _ _ _ R).
    + simpl. by rewrite dom_delete_L.
    + exact (r_aok _ _ _ _ _ _ R).
    + intros k' [v Hk']. simpl in *. apply lookup_delete_Some in Hk' as [Hne Hk'].
      rewrite Hesame by done. rewrite Heel. destruct (decide (k' = p)) as [->|].
      * rewrite list_lookup_insert by (by eapply lookup_lt_Some). by rewrite Hpe.
      * by rewrite list_lookup_insert_ne.
    + simpl. apply Hech.
      * eapply (chain_unlink (g_edges g) (fl_elem el') _ (f :: l1) k l2 p l0); try done.
        -- unfold fl_nx. by rewrite Hke.
        -- intros y Hyp Hyk. unfold fl_nx. rewrite Hesame by done. rewrite Heel.
           by rewrite list_lookup_insert_ne.
        -- rewrite Hesame by done. rewrite Heel. apply list_lookup_insert. by eapply lookup_lt_Some.
      * intros k' Hk'. rewrite Hesame. 2:{ intros ->. apply Hk'. rewrite HEij. (clear; set_solver). }
        rewrite Heel. rewrite list_lookup_insert_ne; [done|]. by intros ->.
    + intros s c t Hin Hne. simpl. destruct (r_adj _ _ _ _ _ _ R _ _ _ Hin) as (nx & He & _ & _).
      rewrite He. simpl. do 2 f_equal. destruct (decide (pair_is i j s t)) as [Hp|Hp].
      * rewrite HE'pair by done. simpl. assert (E s t = E i j) as ->.
        { destruct Hp as [[-> ->]|[-> ->]]; done. }
        by rewrite HEij.
      * by rewrite HE'other.
    + intros c. setoid_rewrite HNid. apply (r_LA _ _ _ _ _ _ R).
    + intros t y nc Ht. rewrite HNid. exact (r_node _ _ _ _ _ _ R _ _ _ Ht).
Qed.
