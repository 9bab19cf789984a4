(** Splitting one island, and all of them. *)
From Coq Require Import ZArith.
From Verif Require Import Outcome FreeListModel FreeListProofs GraphModel GraphSpec GraphProofs GraphHist GraphWalk GraphMain
  IslModel IslSpec IslBase IslInv IslData IslRel IslReach IslInit IslSplit.

(** Connected bodies share the island once nothing waits for one. *)
Lemma pconn_member s m w h x y : inv s m w → complete s w → member w h x → pconn s x y → member w h y.
Proof.
  intros IV C Hx H. induction H as [|y z H IH Hl Hp]; [done|].
  pose proof (iv_part _ _ _ IV) as P. destruct Hl as [k Hk].
  assert (Hky : ends s k y) by (exists z; tauto). assert (Hkz : ends s k z) by (exists y; tauto).
  assert (is_Some (w_res w !! k)) as [[K|] HK].
  { apply (pt_res _ _ _ _ P). right. by eapply ends_edge. }
  - pose proof (pt_ends _ _ _ _ P k K y Hky HK) as HKy. pose proof (pt_ends _ _ _ _ P k K z Hkz HK) as HKz.
    apply pconn_right in H. apply (pt_node _ _ _ _ P) in HKy, IH; [|done..]. rewrite HKy in IH. by simplify_eq.
  - exfalso. apply (C z Hp). right. by exists k.
Qed.
Lemma edge_member s m w h k x : inv s m w → complete s w → procedural s x → member w h x → ends s k x → emember w h k.
Proof.
  intros IV C Hp Hx Hk. pose proof (iv_part _ _ _ IV) as P. assert (He : is_edge s k) by (by eapply ends_edge).
  assert (is_Some (w_res w !! k)) as [[K|] HK].
  { apply (pt_res _ _ _ _ P). by right. }
  - pose proof (pt_ends _ _ _ _ P k K x Hk HK) as HKx. apply (pt_node _ _ _ _ P) in HKx, Hx; [|done..].
    rewrite HKx in Hx. simplify_eq. by apply (pt_edge _ _ _ _ P).
  - exfalso. apply (C x Hp). right. by exists k.
Qed.
Lemma emember_has s m w h k : inv s m w → emember w h k → ∃ x, ends s k x ∧ procedural s x ∧ member w h x.
Proof.
  intros IV Hk. pose proof (iv_part _ _ _ IV) as P. assert (He : is_edge s k) by (by eapply (pt_elive _ _ _ _ P)).
  apply (pt_edge _ _ _ _ P) in Hk; [|done]. destruct (pt_has _ _ _ _ P k h He Hk) as (x & Hx & Hp).
  exists x. split_and!; [done..|]. by eapply (pt_ends _ _ _ _ P).
Qed.
Lemma in_island_mem s m w x h : inv s m w → in_island w x h → (procedural s x ∧ member w h x) ∨ (is_edge s x ∧ emember w h x).
Proof.
  intros IV Hx. pose proof (iv_part _ _ _ IV) as P. assert (is_Some (w_res w !! x)) as [Hp|Hk]%(pt_res _ _ _ _ P) by (by eexists).
  - left. split; [done|]. by apply (pt_node _ _ _ _ P).
  - right. split; [done|]. by apply (pt_edge _ _ _ _ P).
Qed.
Lemma in_island_island s m w x h : inv s m w → in_island w x h → is_island w h.
Proof. intros IV Hx. destruct (in_island_mem s m w x h IV Hx) as [[_ (il & H & _)]|[_ (il & H & _)]]; by eexists. Qed.

(** ** An island without procedural bodies goes away *)
Lemma erase_ok s w h l :
  (∀ x, is_Some (w_multi w !! x) ↔ anchored s x) → NoDup l → (∀ x is, x ∈ l → w_multi w !! x = Some is → h ∈ is) → (∀ x, x ∈ l → anchored s x) →
  ∃ M, fold_res (λ w x, is ← opt_res (w_multi w !! x); is ← ss_erase h is;
                         Ok (set_multi w (<[x := is]> (w_multi w)))) w l = Ok (set_multi w M) ∧
    ∀ y, M !! y = if decide (y ∈ l) then ss_pop h <$> w_multi w !! y else w_multi w !! y.
Proof.
  intros HM Hnd Hh Ha.
  edestruct (fold_res_ind (λ w x, is ← opt_res (w_multi w !! x); is ← ss_erase h is;
                         Ok (set_multi w (<[x := is]> (w_multi w))))
    (λ l w', ∃ M, w' = set_multi w M ∧ ∀ y, M !! y = if decide (y ∈ l) then ss_pop h <$> w_multi w !! y else w_multi w !! y) l w)
    as (w' & Hw' & M & -> & HMM); [| |by exists M].
  - exists (w_multi w). split; [by destruct w|]. intros y. rewrite decide_False; [done|]. intros H. by apply elem_of_nil in H.
  - intros l1 x l2 w1 Hl (M & -> & HMM).
    assert (Hxl : x ∈ l) by (rewrite Hl, elem_of_app, elem_of_cons; tauto).
    assert (Hxl1 : x ∉ l1).
    { rewrite Hl in Hnd. apply NoDup_app in Hnd as (_ & Hd & _). intros Hx. apply (Hd x Hx). apply elem_of_list_here. }
    destruct (proj2 (HM x) (Ha x Hxl)) as [is His]. cbn [w_multi set_multi]. rewrite HMM, decide_False, His by done.
    cbn [opt_res mbind res_bind]. rewrite ss_erase_ok by (by eapply Hh). cbn [mbind res_bind].
    eexists. split; [done|]. eexists. split; [done|]. intros y. destruct (decide (y = x)) as [->|Hne].
    + rewrite lookup_insert, decide_True, His; [done|]. rewrite elem_snoc. tauto.
    + rewrite lookup_insert_ne by done. rewrite HMM. apply decide_ext. rewrite elem_snoc. tauto.
Qed.

Record split_post (s : sgraph) (m : mgraph) (w : world) (h : nat) (w' : world) : Prop := {
  sp_inv : inv s m w';
  sp_complete : complete s w';
  sp_keeps : keeps w w';
  sp_same : same w w';
  sp_others : ∀ J, J ≠ h → is_island w J → w_isl w' !! J = w_isl w !! J;
  sp_tight : ∀ J, J = h ∨ tight s w J → tight s w' J
}.

Lemma split_empty_ok s m w h il :
  inv s m w → complete s w → w_isl w !! h = Some il → Forall (λ x, x ∉ w_proc w) (il_nodes il) →
  ∃ w', split_one w h = Ok w' ∧ split_post s m w h w'.
Proof.
  intros IV C Hil Hall. pose proof (iv_part _ _ _ IV) as P. pose proof (iv_store _ _ _ IV) as ST.
  unfold split_one. rewrite Hil. cbn [opt_res mbind res_bind]. rewrite decide_True by done.
  assert (Hnp : ∀ x, member w h x → ¬ procedural s x).
  { intros x (il' & Hil' & Hx) Hp. simplify_eq. rewrite Forall_forall in Hall. apply (Hall x Hx). by apply (st_proc _ _ ST). }
  assert (Hne : ∀ k, ¬ emember w h k).
  { intros k Hk. destruct (emember_has s m w h k IV Hk) as (x & _ & Hp & Hx). by apply (Hnp x). }
  assert (Hedges : il_edges il = []).
  { destruct (il_edges il) as [|k l] eqn:E; [done|]. exfalso. apply (Hne k). exists il. split; [done|]. rewrite E. apply elem_of_list_here. }
  rewrite Hedges. rewrite bool_decide_true by done. cbn [assert_ mbind res_bind].
  destruct (erase_ok s w h (reverse (il_nodes il))) as (M & -> & HM).
  { apply ST. }
  { rewrite reverse_Permutation. by eapply (st_nd _ _ ST). }
  { intros x is Hx His. rewrite elem_of_reverse in Hx. eapply (st_mem _ _ ST); [|done]. by exists il. }
  { intros x Hx. rewrite elem_of_reverse in Hx. assert (member w h x) as Hm by (by exists il).
    destruct (node_kind s x) as [Hp|?]; [by eapply (pt_nlive _ _ _ _ P)|by destruct (Hnp x)|done]. }
  cbn [mbind res_bind]. eexists. split; [done|].
  set (w' := drop_island (set_multi w M) h).
  assert (Hisl : ∀ K, w_isl w' !! K = if decide (K = h) then None else w_isl w !! K).
  { intros K. cbn. destruct (decide (K = h)) as [->|HK]; [by rewrite lookup_delete|by rewrite lookup_delete_ne]. }
  assert (Hii : ∀ K, is_island w' K ↔ K ≠ h ∧ is_island w K).
  { intros K. unfold is_island. rewrite Hisl. case_decide; split; try tauto. intros [? ?]. done. }
  assert (Hmem : ∀ K y, member w' K y ↔ K ≠ h ∧ member w K y).
  { intros K y. unfold member. rewrite Hisl. case_decide; split; try tauto. intros (? & ? & _). done. }
  assert (Hemem : ∀ K y, emember w' K y ↔ emember w K y).
  { intros K y. destruct (decide (K = h)) as [->|HK].
    - split; [|by intros ?%Hne]. intros (? & Hx & _). by rewrite Hisl, decide_True in Hx.
    - unfold emember. by rewrite Hisl, decide_False. }
  assert (Hnoh : ∀ x, ¬ in_island w x h).
  { intros x Hx. destruct (in_island_mem s m w x h IV Hx) as [[? ?]|[? ?]]; [by eapply Hnp|by eapply Hne]. }
  split.
  - split.
    + split.
      * apply P.
      * intros x K Hp. cbn. rewrite Hmem, (pt_node _ _ _ _ P) by done. split; [|tauto]. intros HK. split; [|done].
        intros ->. by apply (Hnp x).
      * intros k K Hk. cbn. rewrite Hemem. by apply (pt_edge _ _ _ _ P).
      * intros K x [_ HK]%Hmem. by eapply (pt_nlive _ _ _ _ P).
      * intros K x HK%Hemem. by eapply (pt_elive _ _ _ _ P).
      * intros k K x Hk HK. cbn in HK. apply Hmem. split; [|by eapply (pt_ends _ _ _ _ P)]. intros ->. by apply (Hnoh k).
      * intros k K Hk HK. cbn in HK. by eapply (pt_has _ _ _ _ P).
    + split.
      * intros K il'. rewrite Hisl. case_decide; [done|]. by apply (st_nd _ _ ST).
      * intros x. cbn. rewrite HM, <- (st_multi _ _ ST x). case_decide; [|done]. by rewrite fmap_is_Some.
      * intros x is. cbn. rewrite HM. case_decide; [|by apply (st_mnd _ _ ST)].
        destruct (w_multi w !! x) as [is0|] eqn:E; [|done]. cbn. intros [= <-].
        destruct (st_mnd _ _ ST x is0 E) as [N1 N2]. destruct (ss_pop_spec h is0 N1) as [Q1 Q2].
        split; [done|]. intros K [HK _]%Q2. auto.
      * intros K x is [HKh HK]%Hmem. cbn. rewrite HM. case_decide; [|by apply (st_mem _ _ ST)].
        destruct (w_multi w !! x) as [is0|] eqn:E; [|done]. cbn. intros [= <-].
        destruct (st_mnd _ _ ST x is0 E) as [N1 N2]. destruct (ss_pop_spec h is0 N1) as [Q1 Q2]. apply Q2.
        split; [|done]. by eapply (st_mem _ _ ST).
      * intros x. rewrite Hii. cbn. rewrite elem_of_difference, elem_of_singleton, (st_valid _ _ ST).
        split; [tauto|]. intros [Hx|[Hx|[Hx1 Hx]]]; (split; [tauto|]); [..|done]; intros ->.
        -- apply (st_node _ _ ST) in Hx as (_ & _ & Hx). apply Hx. by eexists.
        -- apply (st_edge _ _ ST) in Hx as (_ & Hx). apply Hx. by eexists.
      * intros x Hx. rewrite Hii. destruct (st_node _ _ ST x Hx) as (? & ? & ?). cbn. tauto.
      * intros x Hx. rewrite Hii. destruct (st_edge _ _ ST x Hx) as (? & ?). cbn. tauto.
      * intros x [_ Hx]%Hii. by apply (st_isl _ _ ST).
      * apply ST.
      * apply ST.
    + split.
      * intros x. cbn. rewrite elem_of_difference, elem_of_singleton. intros [Hx Hxh].
        destruct (sl_up _ (iv_slp _ _ _ IV) x Hx) as [Hi|(K & HK & HKa)].
        -- left. by apply Hii.
        -- right. exists K. split; [done|]. rewrite elem_of_difference, elem_of_singleton. split; [done|]. intros ->. by apply (Hnoh x).
      * intros x K HK. cbn. rewrite !elem_of_difference, !elem_of_singleton. intros [HKa HKh]. split; [by eapply (sl_down _ (iv_slp _ _ _ IV))|].
        intros ->. destruct (in_island_mem s m w h K IV HK) as [[Hp _]|[Hk _]].
        -- destruct (st_node _ _ ST h (procedural_node _ _ Hp)) as (_ & _ & Hn). apply Hn. by eexists.
        -- destruct (st_edge _ _ ST h Hk) as (_ & Hn). apply Hn. by eexists.
    + by eapply rel_same; [apply IV|..].
    + apply IV.
  - intros x Hx Hn. by apply (C x Hx).
  - split; try done.
    + intros K il'. rewrite Hisl. case_decide; [done|]. intros HK. right. eauto.
    + intros x. cbn. rewrite elem_of_difference. tauto.
  - by split.
  - intros J HJ _. by rewrite Hisl, decide_False.
  - intros J HJ x y [HJh Hx]%Hmem [_ Hy]%Hmem. destruct HJ as [->|HJ]; [done|]. by apply HJ.
Qed.

(** ** An island with procedural bodies *)
Section split.
Context (s : sgraph) (m : mgraph) (w : world) (h : nat) (il : island).
Context (IV : inv s m w) (C : complete s w) (Hil : w_isl w !! h = Some il).

Lemma comps_ok :
  ∃ cs, split_loop (S (length (reverse (il_nodes il)))) w (reverse (il_nodes il)) = Ok cs ∧ grouping s (member w h) cs.
Proof using All.
  destruct (split_loop_ok s m w (S (length (reverse (il_nodes il)))) (reverse (il_nodes il))) as (cs & Hcs & G).
  - apply IV.
  - rewrite reverse_Permutation. by eapply (st_nd _ _ (iv_store _ _ _ IV)).
  - lia.
  - intros x Hx. rewrite elem_of_reverse in Hx. eapply (pt_nlive _ _ _ _ (iv_part _ _ _ IV) h). by exists il.
  - intros x y Hx Hxy. rewrite elem_of_reverse in *. assert (member w h x) as Hm by (by exists il).
    destruct (pconn_member s m w h x y IV C Hm Hxy) as (il' & Hil' & Hy). by simplify_eq.
  - exists cs. split; [done|]. destruct G as [G1 G2 G3 G4]. split; [..|done|done].
    + intros c Hc. destruct (G1 c Hc) as (x & Hp & Hx & ?). exists x. rewrite elem_of_reverse in Hx. split_and!; try tauto. by exists il.
    + intros x (il' & Hil' & Hx) Hp. simplify_eq. apply G2; [|done]. by apply elem_of_reverse.
Qed.

Context (cs : list (list nat * list nat)) (G : grouping s (member w h) cs).

Lemma gc_member c y : c ∈ cs → y ∈ c.1 → member w h y.
Proof using IV C G.
  intros Hc Hy. destruct (gr_one _ _ _ G c Hc) as (x & Hp & Hx & _ & _ & H1 & _).
  destruct (proj1 (H1 y) Hy) as [H|(_ & z & Hz & k & Hk)]; [by eapply pconn_member|].
  assert (Hmz : member w h z) by (by eapply pconn_member).
  assert (Hez : ends s k z) by (exists y; tauto).
  assert (Hey : ends s k y) by (exists z; tauto).
  eapply (pt_ends _ _ _ _ (iv_part _ _ _ IV) k); [done|]. apply (pt_edge _ _ _ _ (iv_part _ _ _ IV)); [by eapply ends_edge|].
  apply (edge_member s m w h k z IV C); [by eapply pconn_right|done|done].
Qed.
Lemma gc_edge c k : c ∈ cs → k ∈ c.2 → emember w h k.
Proof using IV C G.
  intros Hc Hk. destruct (gr_one _ _ _ G c Hc) as (x & Hp & Hx & _ & _ & _ & H2).
  destruct (proj1 (H2 k) Hk) as (z & Hz & Hkz). apply (edge_member s m w h k z IV C); [by eapply pconn_right|by eapply pconn_member|done].
Qed.
Lemma gc_good c : c ∈ cs → good_comp s c.
Proof using IV C G.
  intros Hc. destruct (gr_one _ _ _ G c Hc) as (x & Hp & Hx & N1 & N2 & _ & _). split_and!; [done..| |].
  - intros y Hy. eapply (pt_nlive _ _ _ _ (iv_part _ _ _ IV)). by eapply gc_member.
  - intros y Hy. eapply (pt_elive _ _ _ _ (iv_part _ _ _ IV)). by eapply gc_edge.
Qed.
Lemma gc_cover_edge k : emember w h k → ∃ c, c ∈ cs ∧ k ∈ c.2.
Proof using IV C G.
  intros Hk. destruct (emember_has s m w h k IV Hk) as (x & Hx & Hp & Hm).
  destruct (gr_cover _ _ _ G x Hm Hp) as (c & Hc & Hxc). exists c. split; [done|].
  destruct (gr_one _ _ _ G c Hc) as (z & _ & _ & _ & _ & H1 & H2). apply H2. exists x. split; [|done].
  destruct (proj1 (H1 x) Hxc) as [?|[? _]]; [done|]. by destruct (kind_excl s x).
Qed.
Lemma gc_ends c k x : c ∈ cs → k ∈ c.2 → ends s k x → x ∈ c.1.
Proof using IV C G.
  intros Hc Hk Hx. destruct (gr_one _ _ _ G c Hc) as (z & _ & _ & _ & _ & H1 & H2). apply H1.
  destruct (proj1 (H2 k) Hk) as (y & Hy & Hky).
  assert (Hlive : is_Some (sg_nodes s !! x)).
  { eapply (pt_nlive _ _ _ _ (iv_part _ _ _ IV)), (pt_ends _ _ _ _ (iv_part _ _ _ IV)); [done|].
    apply (pt_edge _ _ _ _ (iv_part _ _ _ IV)); [by eapply ends_edge|by eapply gc_edge]. }
  destruct (ends_two s k x y Hx Hky) as [->|Hl]; [by left|].
  destruct (node_kind s x Hlive) as [Hp|Ha].
  - left. eapply pc_step; [done| |done]. by apply linked_sym.
  - right. split; [done|]. exists y. split; [done|]. by apply linked_sym.
Qed.
Lemma gc_disj c c' y : c ∈ cs → c' ∈ cs → in_comp s c y → in_comp s c' y → c = c'.
Proof using IV C G.
  intros Hc Hc' [[Hp Hy]|Hy] [[Hp' Hy']|Hy'].
  - by eapply (gr_disj _ _ _ G).
  - exfalso. eapply (inv_sep _ _ _ IV y); [by apply procedural_node|]. by apply (gc_good c' Hc').
  - exfalso. eapply (inv_sep _ _ _ IV y); [by apply procedural_node|]. by apply (gc_good c Hc).
  - assert (Hk : emember w h y) by (by eapply gc_edge). destruct (emember_has s m w h y IV Hk) as (x & Hx & Hp & Hm).
    eapply (gr_disj _ _ _ G c c' x); [done..| |]; by eapply gc_ends.
Qed.
Lemma gc_in_island y c : c ∈ cs → in_comp s c y → in_island w y h.
Proof using IV C G.
  intros Hc [[Hp Hy]|Hy].
  - apply (pt_node _ _ _ _ (iv_part _ _ _ IV)); [done|]. by eapply gc_member.
  - apply (pt_edge _ _ _ _ (iv_part _ _ _ IV)); [by apply (gc_good c Hc)|by eapply gc_edge].
Qed.
Lemma gc_cover_island y : in_island w y h → ∃ c, c ∈ cs ∧ in_comp s c y.
Proof using IV C G.
  intros Hy. destruct (in_island_mem s m w y h IV Hy) as [[Hp Hm]|[Hk Hm]].
  - destruct (gr_cover _ _ _ G y Hm Hp) as (c & Hc & Hyc). exists c. split; [done|]. by left.
  - destruct (gc_cover_edge y Hm) as (c & Hc & Hyc). exists c. split; [done|]. by right.
Qed.
Lemma gc_tight c x y : c ∈ cs → x ∈ c.1 → y ∈ c.1 → procedural s x → procedural s y → pconn s x y.
Proof using G.
  intros Hc Hx Hy Hpx Hpy. destruct (gr_one _ _ _ G c Hc) as (z & _ & _ & _ & _ & H1 & _).
  destruct (proj1 (H1 x) Hx) as [Qx|[? _]]; [|by destruct (kind_excl s x)].
  destruct (proj1 (H1 y) Hy) as [Qy|[? _]]; [|by destruct (kind_excl s y)].
  eapply pconn_trans; [by apply pconn_sym|done].
Qed.

Lemma split_many_ok b c : cs !! b = Some c →
  ∃ w', fold_res (split_new h) (unsleep (set_isl w (<[h := Island c.1 c.2 None]> (w_isl w))) h c.1 c.2) (swap_last b cs) = Ok w' ∧
    split_post s m w h w'.
Proof using All.
  intros Hb. pose proof (iv_part _ _ _ IV) as P. pose proof (iv_store _ _ _ IV) as ST.
  set (rest := swap_last b cs). set (n0 := w_next w).
  pose proof (swap_last_perm cs b c Hb) as Hperm. fold rest in Hperm.
  assert (Hc : c ∈ cs) by (by eapply elem_of_list_lookup_2).
  assert (Hin : ∀ c', c' ∈ cs ↔ c' = c ∨ c' ∈ rest) by (intros c'; rewrite Hperm; by rewrite elem_of_cons).
  assert (Hrest : ∀ i c', rest !! i = Some c' → c' ∈ cs).
  { intros i c' Hi. apply Hin. right. by eapply elem_of_list_lookup_2. }
  pose proof (gr_nd _ _ _ G) as Hnd. rewrite Hperm in Hnd. apply NoDup_cons in Hnd as [Hcr Hndr].
  set (w1 := unsleep (set_isl w (<[h := Island c.1 c.2 None]> (w_isl w))) h c.1 c.2).
  assert (Hh : h < n0) by (apply (st_isl _ _ ST); by eexists).
  assert (Hii1 : ∀ K, is_island w1 K ↔ is_island w K).
  { intros K. unfold is_island. cbn. destruct (decide (K = h)) as [->|HK].
    - rewrite lookup_insert, Hil. split; intros _; by eexists.
    - by rewrite lookup_insert_ne. }
  assert (Hnoisl : ∀ y, in_island w y h → y ≠ h ∧ y < n0).
  { intros y Hy. destruct (in_island_mem s m w y h IV Hy) as [[Hp _]|[Hk _]].
    - destruct (st_node _ _ ST y (procedural_node _ _ Hp)) as (? & _ & Hn). split; [|done]. intros ->. apply Hn. by eexists.
    - destruct (st_edge _ _ ST y Hk) as (? & Hn). split; [|done]. intros ->. apply Hn. by eexists. }
  destruct (split_rest_ok s h w1 rest (Island c.1 c.2 None)) as (w' & Hw' & Hsm & Hf & ST' & Hi & Hr1 & Hr2 & Has).
  - (* store *)
    split.
    + intros K il'. cbn. intros [[<- <-]|[_ HK]]%lookup_insert_Some; [cbn; by destruct (gc_good c Hc) as (? & ? & _)|].
      by eapply (st_nd _ _ ST).
    + apply ST.
    + apply ST.
    + intros K x is (il' & HK & Hx) His. cbn in HK, His. apply lookup_insert_Some in HK as [[<- <-]|[_ HK]].
      * eapply (st_mem _ _ ST); [|done]. by eapply gc_member.
      * eapply (st_mem _ _ ST); [|done]. by exists il'.
    + intros x. rewrite Hii1. apply ST.
    + intros x Hx. rewrite Hii1. by apply (st_node _ _ ST).
    + intros x Hx. rewrite Hii1. by apply (st_edge _ _ ST).
    + intros x Hx. apply Hii1 in Hx. by apply (st_isl _ _ ST).
    + apply ST.
    + apply ST.
  - apply P.
  - cbn. by rewrite lookup_insert.
  - intros c' Hc'. apply gc_good, Hin. by right.
  - intros i j c1 c2 y H1 H2 Hy1 Hy2. assert (c1 = c2) as -> by (eapply gc_disj; eauto).
    by eapply NoDup_lookup.
  - change (w_next w1) with n0 in *. exists w'. split; [done|].
    assert (Hsm' : same w w') by (eapply same_trans; [|exact Hsm]; by split).
    (* the groups *)
    set (gi := λ K c', (K = h ∧ c' = c) ∨ (n0 ≤ K ∧ rest !! (K - n0) = Some c')).
    assert (Hgcs : ∀ K c', gi K c' → c' ∈ cs) by (intros K c' [[_ ->]|[_ H]]; eauto).
    assert (Hgex : ∀ c', c' ∈ cs → ∃ K, gi K c').
    { intros c' [->|Hc']%Hin; [exists h; by left|]. apply elem_of_list_lookup in Hc' as [i Hi']. exists (n0 + i). right.
      split; [lia|]. by replace (n0 + i - n0) with i by lia. }
    assert (Hgfun : ∀ K K' c', gi K c' → gi K' c' → K = K').
    { intros K K' c' [[-> ->]|[HK H]] [[-> E]|[HK' H']]; [done|..].
      - exfalso. apply Hcr. by eapply elem_of_list_lookup_2.
      - subst c'. exfalso. apply Hcr. by eapply elem_of_list_lookup_2.
      - assert (K - n0 = K' - n0) by (by eapply NoDup_lookup). lia. }
    assert (Hgdet : ∀ K c1 c2, gi K c1 → gi K c2 → c1 = c2).
    { intros K c1 c2 [[-> ->]|[HK H]] [[E ->]|[HK' H']]; [done|lia|lia|congruence]. }
    set (Gp := λ K, ∃ c', gi K c').
    assert (HGdec : ∀ K, Gp K ∨ ¬ Gp K ∧ K ≠ h).
    { intros K. destruct (decide (K = h)) as [->|HKh]; [left; exists c; by left|].
      destruct (decide (n0 ≤ K)) as [HK|HK].
      - destruct (rest !! (K - n0)) as [c'|] eqn:E; [left; exists c'; by right|]. right. split; [|done].
        intros (c' & [[? _]|[_ ?]]); congruence.
      - right. split; [|done]. intros (c' & [[? _]|[? _]]); [done|lia]. }
    assert (Higi : ∀ K c', gi K c' → w_isl w' !! K = Some (Island c'.1 c'.2 None)).
    { intros K c' [[-> ->]|[HK H]]; rewrite Hi.
      - rewrite decide_True by done. cbn. by rewrite lookup_insert.
      - rewrite decide_False by lia. by rewrite H. }
    assert (Hino : ∀ K, ¬ Gp K → K ≠ h → w_isl w' !! K = w_isl w !! K).
    { intros K HK HKh. rewrite Hi. case_decide as Hd.
      - cbn. by rewrite lookup_insert_ne.
      - destruct (rest !! (K - n0)) as [c'|] eqn:E; [exfalso; apply HK; exists c'; right; split; [lia|done]|].
        cbn. symmetry. apply eq_None_not_Some. intros Q%(st_isl _ _ ST). unfold n0 in *. lia. }
    assert (Hmem : ∀ K y, member w' K y ↔ (∃ c', gi K c' ∧ y ∈ c'.1) ∨ (¬ Gp K ∧ member w K y)).
    { intros K y. destruct (HGdec K) as [[c' HK]|[HK HKh]].
      - unfold member. rewrite (Higi K c' HK). split.
        + intros (il' & [= <-] & Hy). left. by exists c'.
        + intros [(c2 & HK2 & Hy)|[Hn _]]; [|exfalso; apply Hn; by exists c']. rewrite (Hgdet K c' c2) by done. by eexists.
      - unfold member. rewrite Hino by done. split; [tauto|]. intros [(c2 & HK2 & Hy)|[Hn ?]]; [|done]. exfalso. apply HK. by exists c2. }
    assert (Hemem : ∀ K y, emember w' K y ↔ (∃ c', gi K c' ∧ y ∈ c'.2) ∨ (¬ Gp K ∧ emember w K y)).
    { intros K y. destruct (HGdec K) as [[c' HK]|[HK HKh]].
      - unfold emember. rewrite (Higi K c' HK). split.
        + intros (il' & [= <-] & Hy). left. by exists c'.
        + intros [(c2 & HK2 & Hy)|[Hn _]]; [|exfalso; apply Hn; by exists c']. rewrite (Hgdet K c' c2) by done. by eexists.
      - unfold emember. rewrite Hino by done. split; [tauto|]. intros [(c2 & HK2 & Hy)|[Hn ?]]; [|done]. exfalso. apply HK. by exists c2. }
    assert (Hres1 : ∀ K c' y, gi K c' → in_comp s c' y → w_res w' !! y = Some (Some K)).
    { intros K c' y [[-> ->]|[HK H]] Hy.
      - rewrite Hr2; [cbn; by eapply gc_in_island|]. intros c2 Hc2 Hy2. apply Hcr.
        rewrite (gc_disj c c2 y); [done..|by apply Hin; right|done|done].
      - rewrite (Hr1 _ _ _ H Hy). do 2 f_equal. lia. }
    assert (Hres2 : ∀ y, (∀ c', c' ∈ cs → ¬ in_comp s c' y) → w_res w' !! y = w_res w !! y).
    { intros y Hy. rewrite Hr2; [done|]. intros c' Hc'. apply Hy, Hin. by right. }
    assert (Hresh : ∀ y K, w_res w' !! y = Some (Some K) → ¬ Gp K → in_island w y K ∧ ∀ c', c' ∈ cs → ¬ in_comp s c' y).
    { intros y K HK Hn. destruct (decide (Exists (λ c', in_comp s c' y) cs)) as [HE|HE].
      - apply Exists_exists in HE as (c' & Hc' & Hy). destruct (Hgex c' Hc') as [K' HK'].
        rewrite (Hres1 K' c' y HK' Hy) in HK. simplify_eq. exfalso. apply Hn. by exists c'.
      - assert (∀ c', c' ∈ cs → ¬ in_comp s c' y) as Hno.
        { intros c' Hc' Hy. apply HE, Exists_exists. eauto. }
        split; [|done]. unfold in_island. by rewrite <- Hres2. }
    assert (Hasl : ∀ y, y ∈ w_asleep w' ↔ y ∈ w_asleep w ∧ ¬ Gp y ∧ ∀ c', c' ∈ cs → y ∉ c'.1 ∧ y ∉ c'.2).
    { intros y. rewrite Has. cbn. rewrite elem_of_difference, !elem_of_union, elem_of_singleton, !elem_lst. split.
      - intros ((Q1 & Q2) & Q3 & Q4). split_and!; [done|..].
        + intros (c' & [[-> _]|[HK H]]); [tauto|]. apply lookup_lt_Some in H. lia.
        + intros c' [->|Hc']%Hin; [tauto|auto].
      - intros (Q1 & Q2 & Q3). split_and!; [done|..].
        + destruct (Q3 c Hc) as [Q4 Q5]. intros [[->|?]|?]; [|done..]. apply Q2. exists c. by left.
        + intros HK. destruct (lookup_lt_is_Some_2 rest (y - n0)) as [c' Hc']; [lia|]. apply Q2. exists c'. right. split; [lia|done].
        + intros c' Hc'. apply Q3, Hin. by right. }
    assert (Hnull : ∀ y, null w' y → null w y).
    { intros y Hy. unfold null in *. destruct (decide (Exists (λ c', in_comp s c' y) cs)) as [HE|HE].
      - apply Exists_exists in HE as (c' & Hc' & Hyc). destruct (Hgex c' Hc') as [K' HK'].
        rewrite (Hres1 K' c' y HK' Hyc) in Hy. done.
      - rewrite Hres2 in Hy; [done|]. intros c' Hc' Hyc. apply HE, Exists_exists. eauto. }
    assert (IV' : inv s m w').
    { split.
      - eapply (regroup_part s (w_res w) (member w) (emember w) h Gp (λ K y, ∃ c', gi K c' ∧ y ∈ c'.1) (λ K y, ∃ c', gi K c' ∧ y ∈ c'.2));
          [done|by eapply inv_sep|..].
        + exists c. by left.
        + intros K (c' & [[? _]|[HK H]]) HKh y; [done|].
          assert (Hn : w_isl w !! K = None).
          { apply eq_None_not_Some. intros Q%(st_isl _ _ ST). unfold n0 in *. lia. }
          split; intros (il' & Hil' & _); congruence.
        + intros K y (c' & HK & Hy). split; [by exists c'|]. by apply (gc_good c'); [eapply Hgcs|].
        + intros K y (c' & HK & Hy). by exists c'.
        + intros y Hp. split.
          * intros Hy. destruct (gr_cover _ _ _ G y Hy Hp) as (c' & Hc' & Hyc). destruct (Hgex c' Hc') as [K HK]. eauto.
          * intros (K & c' & HK & Hy). eapply gc_member; [by eapply Hgcs|done].
        + intros K K' y Hp (c1 & H1 & Hy1) (c2 & H2 & Hy2). assert (c1 = c2) as ->; [|by eapply Hgfun].
          eapply (gr_disj _ _ _ G c1 c2 y); [by eapply Hgcs..|done|done|done].
        + intros k. split.
          * intros Hk. destruct (gc_cover_edge k Hk) as (c' & Hc' & Hyc). destruct (Hgex c' Hc') as [K HK]. eauto.
          * intros (K & c' & HK & Hy). eapply gc_edge; [by eapply Hgcs|done].
        + intros K K' y (c1 & H1 & Hy1) (c2 & H2 & Hy2). assert (c1 = c2) as ->; [|by eapply Hgfun].
          eapply (gc_disj c1 c2 y); [by eapply Hgcs..| |]; by right.
        + intros K k x (c' & HK & Hk) Hx. exists c'. split; [done|]. eapply gc_ends; [by eapply Hgcs|done..].
        + intros K y [[(c' & HK & Hy) Hp]|(c' & HK & Hy)]; apply (Hres1 K c'); try done; [by left|by right].
        + intros y Hy. apply Hres2. intros c' Hc' Hyc. destruct (Hgex c' Hc') as [K HK]. apply (Hy K).
          destruct Hyc as [[? ?]|?]; [left; split; [|done]; by exists c'|right; by exists c'].
        + done.
        + done.
      - done.
      - split.
        + intros y (Hy & HyG & Hyc)%Hasl. destruct (sl_up _ (iv_slp _ _ _ IV) y Hy) as [Hyi|(K & HK & HKa)].
          * left. unfold is_island. rewrite Hino; [done|done|]. intros ->. apply HyG. exists c. by left.
          * right. exists K.
            assert (Hno : ∀ c', c' ∈ cs → ¬ in_comp s c' y).
            { intros c' Hc' [[_ Hn]|Hn]; by destruct (Hyc c' Hc'). }
            split; [unfold in_island; by rewrite Hres2|]. apply Hasl. split_and!; [done|..].
            -- intros (c' & [[-> _]|[HKn _]]).
               ++ destruct (gc_cover_island y HK) as (c2 & Hc2 & Hy2). by apply (Hno c2).
               ++ assert (K < n0); [|lia]. apply (st_isl _ _ ST). by eapply in_island_island.
            -- intros c' Hc'. assert (is_island w K) as HKi by (by eapply in_island_island).
               destruct (gc_good c' Hc') as (_ & _ & L1 & L2). split.
               ++ intros Hn%L1%(st_node _ _ ST). tauto.
               ++ intros Hn%L2%(st_edge _ _ ST). tauto.
        + intros y K HK (HKa & HKG & HKc)%Hasl. destruct (Hresh y K HK HKG) as [HK0 Hno]. apply Hasl.
          split_and!; [by eapply (sl_down _ (iv_slp _ _ _ IV))|..].
          * destruct (in_island_mem s m w y K IV HK0) as [[Hp _]|[Hk _]].
            -- destruct (st_node _ _ ST y (procedural_node _ _ Hp)) as (Hlt & _ & Hn). intros (c' & [[-> _]|[HKn _]]).
               ++ apply Hn. by eexists.
               ++ unfold n0 in *. lia.
            -- destruct (st_edge _ _ ST y Hk) as (Hlt & Hn). intros (c' & [[-> _]|[HKn _]]).
               ++ apply Hn. by eexists.
               ++ unfold n0 in *. lia.
          * intros c' Hc'. split.
            -- intros Hyc. destruct (in_island_mem s m w y K IV HK0) as [[Hp _]|[Hk _]].
               ++ apply (Hno c' Hc'). by left.
               ++ apply (inv_sep _ _ _ IV y); [|done]. by apply (gc_good c' Hc').
            -- intros Hyc. apply (Hno c' Hc'). by right.
      - eapply rel_same; [apply IV|apply Hsm'..].
      - rewrite (sm_split _ _ Hsm'). apply IV. }
    split.
    + done.
    + intros x Hp [Hn|(k & Hk & Hn)]; apply (C x Hp); [left; by apply Hnull|right; exists k; split; [done|by apply Hnull]].
    + split.
      * intros K il' HK. destruct (HGdec K) as [[c' HKc]|[HKG HKh]].
        -- rewrite (Higi K c' HKc) in HK. simplify_eq. by left.
        -- rewrite Hino in HK by done. right. eauto.
      * intros y [? _]%Hasl. done.
      * by rewrite Hf.
      * apply Hsm'.
      * apply Hsm'.
    + done.
    + intros J HJ HJi. apply Hino; [|done]. intros (c' & [[? _]|[Hlt _]]); [done|]. pose proof (st_isl _ _ ST J HJi). unfold n0 in *. lia.
    + intros J HJ x y Hx Hy Hpx Hpy. apply Hmem in Hx as [(c1 & H1 & Hx)|[HnG Hx]]; apply Hmem in Hy as [(c2 & H2 & Hy)|[HnG' Hy]].
      * rewrite <- (Hgdet J c1 c2) in Hy by done. apply (gc_tight c1 x y); [by eapply Hgcs|done..].
      * exfalso. apply HnG'. by exists c1.
      * exfalso. apply HnG. by exists c2.
      * destruct HJ as [->|HJ]; [|by apply HJ]. exfalso. apply HnG. exists c. by left.
Qed.
End split.

Lemma split_one_ok s m w h :
  inv s m w → complete s w → is_island w h → ∃ w', split_one w h = Ok w' ∧ split_post s m w h w'.
Proof.
  intros IV C [il Hil]. destruct (decide (Forall (λ x, x ∉ w_proc w) (il_nodes il))) as [Hall|Hall].
  { by eapply split_empty_ok. }
  unfold split_one. rewrite Hil. cbn [opt_res mbind res_bind]. rewrite decide_False by done.
  rewrite ss_pushes_ok by (cbn [app]; rewrite reverse_Permutation; by eapply (st_nd _ _ (iv_store _ _ _ IV))).
  cbn [mbind res_bind app].
  destruct (comps_ok s m w h il IV C Hil) as (cs & -> & G). cbn [mbind res_bind].
  assert (Hne : cs ≠ []).
  { intros ->. apply Hall, Forall_forall. intros x Hx Hp. apply (st_proc _ _ (iv_store _ _ _ IV)) in Hp.
    destruct (gr_cover _ _ _ G x) as (c & Hc & _); [by exists il|done|]. by apply elem_of_nil in Hc. }
  rewrite bool_decide_true by done. cbn [assert_ mbind res_bind]. case_decide as Hlen.
  - exists w. split; [done|]. destruct cs as [|c [|]]; try done. split; [done|done|apply keeps_refl|apply same_refl|done|].
    intros J [->|HJ]; [|done]. intros x y Hx Hy Hpx Hpy.
    destruct (gr_cover _ _ _ G x Hx Hpx) as (c1 & Hc1%elem_one & Hxc), (gr_cover _ _ _ G y Hy Hpy) as (c2 & Hc2%elem_one & Hyc). subst c1 c2.
    eapply (gc_tight s w h [c] G c x y); [apply elem_of_list_here|done..].
  - assert (is_Some (cs !! biggest_idx cs 0 0 0)) as [c Hc].
    { apply lookup_lt_is_Some. destruct cs as [|c cs]; [done|]. apply (biggest_idx_lt (c :: cs) 0 0 0); [lia|done]. }
    rewrite Hc. cbn [opt_res mbind res_bind]. by eapply split_many_ok.
Qed.
