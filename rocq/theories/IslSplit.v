(** split_islands leaves one island per connected part. *)
From Coq Require Import ZArith.
From Verif Require Import Outcome FreeListModel FreeListProofs GraphModel GraphSpec GraphProofs GraphHist GraphWalk GraphMain
  IslModel IslSpec IslBase IslInv IslData IslRel IslReach IslInit.

(** ** Dividing the island [h] into groups *)
Lemma regroup_part s res mem emem h (Gp : nat → Prop) (grp egrp : nat → nat → Prop) res' mem' emem' :
  part s res mem emem → sep s → Gp h →
  (∀ K, Gp K → K ≠ h → ∀ y, ¬ mem K y ∧ ¬ emem K y) →
  (∀ K y, grp K y → Gp K ∧ is_Some (sg_nodes s !! y)) → (∀ K y, egrp K y → Gp K) →
  (∀ y, procedural s y → (mem h y ↔ ∃ K, grp K y)) → (∀ K K' y, procedural s y → grp K y → grp K' y → K = K') →
  (∀ k, emem h k ↔ ∃ K, egrp K k) → (∀ K K' y, egrp K y → egrp K' y → K = K') →
  (∀ K k x, egrp K k → ends s k x → grp K x) →
  (∀ K y, (grp K y ∧ procedural s y) ∨ egrp K y → res' !! y = Some (Some K)) →
  (∀ y, (∀ K, ¬ ((grp K y ∧ procedural s y) ∨ egrp K y)) → res' !! y = res !! y) →
  (∀ K y, mem' K y ↔ grp K y ∨ (¬ Gp K ∧ mem K y)) →
  (∀ K y, emem' K y ↔ egrp K y ∨ (¬ Gp K ∧ emem K y)) →
  part s res' mem' emem'.
Proof.
  intros P HS Hh Hfr Hg Heg Hmh Hmu Heh Heu Hge Hr1 Hr2 Hm He.
  assert (HnE : ∀ K y, procedural s y → ¬ egrp K y).
  { intros K y Hp Hy. apply (HS y); [by apply procedural_node|]. apply (pt_elive _ _ _ _ P h), Heh. eauto. }
  assert (Hedge : ∀ K y, egrp K y → is_edge s y).
  { intros K y Hy. apply (pt_elive _ _ _ _ P h), Heh. eauto. }
  assert (Hdec : ∀ y, is_Some (res !! y) → (∃ K, (grp K y ∧ procedural s y) ∨ egrp K y) ∨ (∀ K, ¬ ((grp K y ∧ procedural s y) ∨ egrp K y))).
  { intros y [r Hr]. destruct (decide (r = Some h)) as [->|Hne].
    - left. assert (is_Some (res !! y)) as [Hp|Hk]%(pt_res _ _ _ _ P); [by eexists|..].
      + apply (pt_node _ _ _ _ P) in Hr; [|done]. apply Hmh in Hr as [K HK]; [|done]. exists K. by left.
      + apply (pt_edge _ _ _ _ P) in Hr; [|done]. apply Heh in Hr as [K HK]. exists K. by right.
    - right. intros K [[HK Hp]|HK]; apply Hne.
      + assert (mem h y) as HKm by (apply Hmh; eauto). apply (pt_node _ _ _ _ P) in HKm; [congruence|done].
      + assert (emem h y) as HKm by (apply Heh; eauto). apply (pt_edge _ _ _ _ P) in HKm; [congruence|by eapply Hedge]. }
  split.
  - intros x. rewrite <- (pt_res _ _ _ _ P). split.
    + intros Hx. destruct (res !! x) eqn:E; [by eexists|]. rewrite Hr2 in Hx; [by rewrite E in Hx|].
      intros K [[HK Hp]|HK].
      * assert (is_Some (res !! x)) as [? ?] by (apply (pt_res _ _ _ _ P); by left). congruence.
      * assert (is_Some (res !! x)) as [? ?] by (apply (pt_res _ _ _ _ P); right; by eapply Hedge). congruence.
    + intros Hx. destruct (Hdec x Hx) as [[K HK]|HK]; [rewrite (Hr1 K) by done; by eexists|by rewrite Hr2].
  - intros x K Hp. rewrite Hm. assert (Hx : is_Some (res !! x)) by (apply (pt_res _ _ _ _ P); by left).
    destruct (Hdec x Hx) as [[J HJ]|HJ].
    + rewrite (Hr1 J) by done. destruct HJ as [[HJ _]|HJ]; [|by destruct (HnE J x)]. split.
      * intros [= <-]. by left.
      * intros [HK|[HK HKm]]; [by rewrite (Hmu J K x)|]. exfalso.
        assert (mem h x) as Hhx by (apply Hmh; eauto). apply HK.
        apply (pt_node _ _ _ _ P) in HKm, Hhx; [|done..]. rewrite Hhx in HKm. by simplify_eq.
    + rewrite Hr2 by done. rewrite (pt_node _ _ _ _ P) by done. split.
      * intros HK. right. split; [|done]. intros HG. destruct (decide (K = h)) as [->|Hne].
        -- apply Hmh in HK as [K' HK']; [|done]. apply (HJ K'). by left.
        -- by destruct (Hfr K HG Hne x).
      * intros [HK|[_ HK]]; [|done]. exfalso. apply (HJ K). by left.
  - intros x K Hp. rewrite He. assert (Hx : is_Some (res !! x)) by (apply (pt_res _ _ _ _ P); by right).
    destruct (Hdec x Hx) as [[J HJ]|HJ].
    + rewrite (Hr1 J) by done. destruct HJ as [[HJ Hpx]|HJ].
      { exfalso. apply (HS x); [by apply procedural_node|done]. }
      split.
      * intros [= <-]. by left.
      * intros [HK|[HK HKm]]; [by rewrite (Heu J K x)|]. exfalso.
        assert (emem h x) as Hhx by (apply Heh; eauto). apply HK.
        apply (pt_edge _ _ _ _ P) in HKm, Hhx; [|done..]. rewrite Hhx in HKm. by simplify_eq.
    + rewrite Hr2 by done. rewrite (pt_edge _ _ _ _ P) by done. split.
      * intros HK. right. split; [|done]. intros HG. destruct (decide (K = h)) as [->|Hne].
        -- apply Heh in HK as [K' HK']. apply (HJ K'). by right.
        -- by destruct (Hfr K HG Hne x).
      * intros [HK|[_ HK]]; [|done]. exfalso. apply (HJ K). by right.
  - intros K x. rewrite Hm. intros [HK|[_ HK]]; [by apply (Hg K)|by eapply (pt_nlive _ _ _ _ P)].
  - intros K x. rewrite He. intros [HK|[_ HK]]; [by eapply Hedge|by eapply (pt_elive _ _ _ _ P)].
  - intros k K x Hk Hr. rewrite Hm. assert (Hke : is_edge s k) by (by eapply ends_edge).
    assert (Hx : is_Some (res !! k)) by (apply (pt_res _ _ _ _ P); by right).
    destruct (Hdec k Hx) as [[J HJ]|HJ].
    + rewrite (Hr1 J) in Hr by done. injection Hr as <-. left. destruct HJ as [[HJ Hpx]|HJ]; [|by eapply Hge].
      exfalso. apply (HS k); [by apply procedural_node|done].
    + rewrite Hr2 in Hr by done. right. split; [|by eapply (pt_ends _ _ _ _ P)]. intros HG.
      apply (pt_edge _ _ _ _ P) in Hr; [|done]. destruct (decide (K = h)) as [->|Hne].
      * apply Heh in Hr as [K' HK']. apply (HJ K'). by right.
      * by destruct (Hfr K HG Hne k).
  - intros k K Hk Hr. assert (Hx : is_Some (res !! k)) by (apply (pt_res _ _ _ _ P); by right).
    destruct (Hdec k Hx) as [[J HJ]|HJ].
    + destruct HJ as [[HJ Hpx]|HJ].
      * exfalso. apply (HS k); [by apply procedural_node|done].
      * assert (emem h k) as Hhk by (apply Heh; eauto). apply (pt_edge _ _ _ _ P) in Hhk; [|done]. by eapply (pt_has _ _ _ _ P).
    + rewrite Hr2 in Hr by done. by eapply (pt_has _ _ _ _ P).
Qed.

(** ** The components found by the loop *)
Definition comp_node (s : sgraph) (x y : nat) : Prop :=
  pconn s x y ∨ (anchored s y ∧ ∃ z, pconn s x z ∧ linked s z y).
Definition comp_edge (s : sgraph) (x k : nat) : Prop := ∃ z, pconn s x z ∧ ends s k z.
Record grouping (s : sgraph) (A : nat → Prop) (cs : list (list nat * list nat)) : Prop := {
  gr_one : ∀ c, c ∈ cs → ∃ x, procedural s x ∧ A x ∧ NoDup c.1 ∧ NoDup c.2 ∧
    (∀ y, y ∈ c.1 ↔ comp_node s x y) ∧ (∀ k, k ∈ c.2 ↔ comp_edge s x k);
  gr_cover : ∀ x, A x → procedural s x → ∃ c, c ∈ cs ∧ x ∈ c.1;
  gr_nd : NoDup cs;
  gr_disj : ∀ c c' x, c ∈ cs → c' ∈ cs → procedural s x → x ∈ c.1 → x ∈ c'.1 → c = c'
}.

Lemma rel_rpath s m w x y i j : rel s m w → procedural s x → w_node w !! x = Some i → w_node w !! y = Some j →
  (rpath m (λ _, True) i j ↔ comp_node s x y).
Proof.
  intros R Hp Hx Hy. assert (Hci : connecting m i) by (by apply (rel_connecting' _ _ _ R x i Hx)).
  unfold comp_node. destruct (node_kind s y) as [Hyp|Hya]; [by eapply (rel_node_live _ _ _ R)|..].
  - rewrite rpath_cpath; [|done|by apply (rel_connecting' _ _ _ R y j Hy)]. rewrite (rel_cpath _ _ _ R x y i j Hx Hy).
    split; [by left|]. intros [?|[? _]]; [done|]. by destruct (kind_excl s y).
  - split.
    + intros H. right. split; [done|]. destruct H as [|u v H Hu Huv _].
      { exfalso. rewrite (rel_node_inj _ _ _ R x y i) in Hp by done. by destruct (kind_excl s y). }
      destruct (proj1 (rel_connecting _ _ _ R u) Hu) as (z & Hz & Hzp). exists z. split.
      * apply (rel_cpath _ _ _ R x z i u Hx Hz). by apply rpath_cpath.
      * by apply (rel_adjacent _ _ _ R z y u v).
    + intros [H|(_ & z & Hz & Hl)].
      { apply pconn_right in H. by destruct (kind_excl s y). }
      destruct (rl_live _ _ _ R z) as [u Hu]; [by apply procedural_node; eapply pconn_right|].
      apply rp_step with u; [| |by apply (rel_adjacent _ _ _ R z y u j)|done].
      * apply rpath_cpath; [done| |].
        -- apply (rel_connecting' _ _ _ R z u Hu). by eapply pconn_right.
        -- by apply (rel_cpath _ _ _ R x z i u Hx Hu).
      * apply (rel_connecting' _ _ _ R z u Hu). by eapply pconn_right.
Qed.

Lemma traverse_ent s m w x i : rel s m w → procedural s x → w_node w !! x = Some i →
  ∃ is es ns ks, traverse (w_graph w) i = Ok (is, es) ∧ mapM_res (node_entity (w_graph w)) is = Ok ns ∧
    mapM_res (edge_entity (w_graph w)) es = Ok ks ∧ NoDup ns ∧ NoDup ks ∧
    (∀ y, y ∈ ns ↔ comp_node s x y) ∧ (∀ k, k ∈ ks ↔ comp_edge s x k).
Proof.
  intros R Hp Hx. destruct (traverse_main _ _ _ i (rl_hist _ _ _ R)) as (is & es & Ht & Hn1 & Hn2 & Hi & He).
  { apply (rel_live _ _ _ R). eauto. }
  set (fn := λ i, default 0 (fst <$> mg_nodes m !! i)).
  set (fe := λ e, default 0 ((λ q : nat * nat * nat, q.1.1) <$> mg_edges m !! e)).
  assert (Hfn : ∀ j y, w_node w !! y = Some j → fn j = y).
  { intros j y [b Hb]%(rl_node _ _ _ R). unfold fn. by rewrite Hb. }
  assert (Hfe : ∀ e k, w_edge w !! k = Some e → fe e = k).
  { intros e k (a & b & Hb)%(rl_edge _ _ _ R). unfold fe. by rewrite Hb. }
  assert (Hil : ∀ j, j ∈ is → ∃ y, w_node w !! y = Some j).
  { intros j Hj. apply Hi in Hj. by eapply (rel_rpath_ent _ _ _ R). }
  assert (Hel : ∀ e, e ∈ es → ∃ k, w_edge w !! k = Some e).
  { intros e (n & _ & _ & Hinc)%He. by eapply (rel_incident_ent _ _ _ R). }
  exists is, es, (fn <$> is), (fe <$> es). split_and!.
  - done.
  - apply mapM_res_ok. intros j Hj. destruct (Hil j Hj) as [y Hy]. by rewrite (Hfn j y Hy), (rel_node_entity _ _ _ R y j Hy).
  - apply mapM_res_ok. intros e Hj. destruct (Hel e Hj) as [y Hy]. by rewrite (Hfe e y Hy), (rel_edge_entity _ _ _ R y e Hy).
  - apply NoDup_fmap_2_strong; [|done]. intros a b Ha Hb Hab. destruct (Hil a Ha) as [y Hy], (Hil b Hb) as [z Hz].
    rewrite (Hfn a y Hy), (Hfn b z Hz) in Hab. congruence.
  - apply NoDup_fmap_2_strong; [|done]. intros a b Ha Hb Hab. destruct (Hel a Ha) as [y Hy], (Hel b Hb) as [z Hz].
    rewrite (Hfe a y Hy), (Hfe b z Hz) in Hab. congruence.
  - intros y. rewrite elem_of_list_fmap. split.
    + intros (j & -> & Hj). destruct (Hil j Hj) as [y Hy]. rewrite (Hfn j y Hy).
      by apply (rel_rpath s m w x y i j R Hp Hx Hy), Hi.
    + intros Hy. assert (is_Some (sg_nodes s !! y)) as [j Hj]%(rl_live _ _ _ R).
      { destruct Hy as [H|[H _]]; [by apply procedural_node; eapply pconn_right|by eexists]. }
      exists j. split; [by rewrite (Hfn j y Hj)|]. by apply Hi, (rel_rpath s m w x y i j R Hp Hx Hj).
  - intros k. rewrite elem_of_list_fmap. split.
    + intros (e & -> & Hj). destruct (Hel e Hj) as [k Hk]. rewrite (Hfe e k Hk).
      apply He in Hj as (n & Hn & Hc & Hinc). apply Hi in Hn.
      destruct (proj1 (rel_connecting _ _ _ R n) Hc) as (z & Hz & Hzp). exists z. split.
      * apply (rel_rpath s m w x z i n R Hp Hx Hz) in Hn as [?|[? _]]; [done|]. by destruct (kind_excl s z).
      * by apply (rel_incident _ _ _ R k e z n).
    + intros (z & Hz & Hk). assert (is_edge s k) as [e Hke]%(rl_elive _ _ _ R) by (by eapply ends_edge).
      assert (is_Some (sg_nodes s !! z)) as [n Hn]%(rl_live _ _ _ R) by (by apply procedural_node; eapply pconn_right).
      exists e. split; [by rewrite (Hfe e k Hke)|]. apply He. exists n. split_and!.
      * apply Hi, (rel_rpath s m w x z i n R Hp Hx Hn). by left.
      * apply (rel_connecting' _ _ _ R z n Hn). by eapply pconn_right.
      * by apply (rel_incident _ _ _ R k e z n).
Qed.

Lemma split_loop_ok s m w fuel : ∀ alln,
  rel s m w → NoDup alln → length alln ≤ fuel → (∀ x, x ∈ alln → is_Some (sg_nodes s !! x)) →
  (∀ x y, x ∈ alln → pconn s x y → y ∈ alln) →
  ∃ cs, split_loop fuel w alln = Ok cs ∧ grouping s (λ x, x ∈ alln) cs.
Proof.
  induction fuel as [|fuel IH]; intros alln R Hnd Hlen Hlive Hcl.
  { destruct alln; [|cbn in Hlen; lia]. exists []. split; [done|]. split; [..|constructor|].
    - intros c Hc. by apply elem_of_nil in Hc.
    - intros x Hx. by apply elem_of_nil in Hx.
    - intros c c' x Hc. by apply elem_of_nil in Hc. }
  cbn [split_loop]. destruct (last alln) as [x|] eqn:Hlast.
  2:{ apply last_None in Hlast as ->. exists []. split; [done|]. split; [..|constructor|].
    - intros c Hc. by apply elem_of_nil in Hc.
    - intros x Hx. by apply elem_of_nil in Hx.
    - intros c c' x Hc. by apply elem_of_nil in Hc. }
  assert (Hx : x ∈ alln) by (by apply last_Some_elem_of).
  case_decide as Hp.
  - apply (rl_proc _ _ _ R) in Hp. destruct (rl_live _ _ _ R x (procedural_node _ _ Hp)) as [i Hi].
    rewrite Hi. cbn [opt_res mbind res_bind].
    destruct (traverse_ent s m w x i R Hp Hi) as (is & es & ns & ks & -> & Hns & Hks & Hn1 & Hn2 & Hny & Hky).
    cbn [mbind res_bind]. rewrite Hns. cbn [mbind res_bind]. rewrite Hks. cbn [mbind res_bind].
    rewrite !ss_pushes_ok by done. cbn [mbind res_bind app].
    destruct (ss_pops_spec ns alln Hnd) as [Hnd' Hel'].
    assert (Hxn : x ∈ ns) by (apply Hny; left; by apply pc_refl).
    destruct (IH (foldl (λ l y, ss_pop y l) alln ns)) as (cs & -> & Gr); try done.
    + assert (x :: foldl (λ l y, ss_pop y l) alln ns ⊆+ alln) as Hsub.
      { apply NoDup_submseteq; [constructor; [|done]|].
        - rewrite Hel'. tauto.
        - intros y [->|Hy]%elem_of_cons; [done|]. by apply Hel' in Hy as [? _]. }
      apply submseteq_length in Hsub. cbn in Hsub. lia.
    + intros y [Hy _]%Hel'. auto.
    + intros y z [Hy Hyn]%Hel' Hyz. apply Hel'. split; [by eapply Hcl|]. intros Hz. apply Hyn, Hny. left.
      apply Hny in Hz as [Hz|[Ha _]]; [|exfalso; apply pconn_right in Hyz; by destruct (kind_excl s z)].
      eapply pconn_trans; [exact Hz|]. by apply pconn_sym.
    + cbn [mbind res_bind]. eexists. split; [done|].
      assert (Hdis : ∀ c y, c ∈ cs → procedural s y → y ∈ ns → y ∈ c.1 → False).
      { intros c y Hc Hyp Hyn Hyc. destruct (gr_one _ _ _ Gr c Hc) as (x' & Hp' & Hx' & _ & _ & H1 & _).
        apply Hel' in Hx' as [_ Hx']. apply Hx', Hny. left.
        destruct (proj1 (H1 y) Hyc) as [Q1|[Ha _]]; [|by destruct (kind_excl s y)].
        destruct (proj1 (Hny y) Hyn) as [Q2|[Ha _]]; [|by destruct (kind_excl s y)].
        eapply pconn_trans; [exact Q2|]. by apply pconn_sym. }
      split.
      * intros c [->|Hc]%elem_of_cons.
        -- exists x. cbn. split_and!; done.
        -- destruct (gr_one _ _ _ Gr c Hc) as (x' & Hp' & Hx' & ?). exists x'. split_and!; try tauto.
           by apply Hel' in Hx' as [? _].
      * intros y Hy Hyp. destruct (decide (y ∈ ns)) as [Hyn|Hyn].
        -- eexists. split; [apply elem_of_list_here|done].
        -- destruct (gr_cover _ _ _ Gr y) as (c & Hc & Hyc); [by apply Hel'|done|]. exists c. split; [by apply elem_of_list_further|done].
      * constructor; [|apply Gr]. intros Hin. by apply (Hdis _ x Hin).
      * intros c c' y [->|Hc]%elem_of_cons [->|Hc']%elem_of_cons Hyp Hy Hy'; [done|..].
        -- by destruct (Hdis c' y).
        -- by destruct (Hdis c y).
        -- by eapply (gr_disj _ _ _ Gr).
  - rewrite (rl_proc _ _ _ R) in Hp. rewrite ss_erase_ok by done. cbn [mbind res_bind].
    destruct (ss_pop_spec x alln Hnd) as [Hnd' Hel'].
    destruct (IH (ss_pop x alln)) as (cs & -> & Gr); try done.
    + pose proof (ss_pop_perm x alln Hx) as Hpe. apply Permutation_length in Hpe. cbn in Hpe. lia.
    + intros y [Hy _]%Hel'. auto.
    + intros y z [Hy Hyn]%Hel' Hyz. apply Hel'. split; [by eapply Hcl|]. intros ->. apply Hp. by eapply pconn_right.
    + exists cs. split; [done|]. destruct Gr as [G1 G2 G3 G4]. split; [|..|done|done].
      * intros c Hc. destruct (G1 c Hc) as (x' & Hp' & Hx' & ?). exists x'. split_and!; try tauto. by apply Hel' in Hx' as [? _].
      * intros y Hy Hyp. apply G2; [|done]. apply Hel'. split; [done|]. by intros ->.
Qed.

(** ** A new island *)
Lemma split_nodes_ok s src J w l il :
  hasres s w → (∀ x, x ∈ w_proc w ↔ procedural s x) → NoDup l → (∀ x, x ∈ l → is_Some (sg_nodes s !! x)) →
  (∀ x is, w_multi w !! x = Some is → J ∉ is) → w_isl w !! src = Some il →
  ∃ w', fold_res (split_node src J) w l = Ok w' ∧ same w w' ∧ w_isl w' = w_isl w ∧ w_valid w' = w_valid w ∧
    w_next w' = w_next w ∧ w_asleep w' = w_asleep w ∧ w_fast w' = w_fast w ∧
    (∀ y, w_res w' !! y = if decide (procedural s y ∧ y ∈ l) then Some (Some J) else w_res w !! y) ∧
    (∀ y, w_multi w' !! y = if decide (y ∈ l) then
       (λ is, if decide (y ∈ il_nodes il) then is ++ [J] else ss_pop src (is ++ [J])) <$> w_multi w !! y else w_multi w !! y).
Proof.
  intros [HR HM] Hpr Hnd Hlive HJ Hsrc.
  destruct (fold_res_ind (split_node src J) (λ l w', same w w' ∧ w_isl w' = w_isl w ∧ w_valid w' = w_valid w ∧
    w_next w' = w_next w ∧ w_asleep w' = w_asleep w ∧ w_fast w' = w_fast w ∧
    (∀ y, w_res w' !! y = if decide (procedural s y ∧ y ∈ l) then Some (Some J) else w_res w !! y) ∧
    (∀ y, w_multi w' !! y = if decide (y ∈ l) then
       (λ is, if decide (y ∈ il_nodes il) then is ++ [J] else ss_pop src (is ++ [J])) <$> w_multi w !! y else w_multi w !! y)) l w) as (w' & Hw' & H);
    [| |by exists w'].
  { split_and!; [apply same_refl|done..| |]; intros y; rewrite decide_False; try done; [intros [_ H]|intros H]; by apply elem_of_nil in H. }
  intros l1 x l2 w1 Hl (Hsm & Hi & Hv & Hnx & Has & Hf & Hr & Hm).
  assert (Hxl : x ∈ l) by (rewrite Hl, elem_of_app, elem_of_cons; tauto).
  assert (Hxl1 : x ∉ l1).
  { rewrite Hl in Hnd. apply NoDup_app in Hnd as (_ & Hd & _). intros Hx. apply (Hd x Hx). apply elem_of_list_here. }
  unfold split_node. rewrite (sm_proc _ _ Hsm). case_decide as Hp.
  - apply Hpr in Hp. assert (is_Some (w_res w1 !! x)) as [r Hrx].
    { rewrite Hr. case_decide; [by eexists|]. apply HR. by left. }
    rewrite Hrx. cbn [opt_res mbind res_bind]. eexists. split; [done|].
    split_and!; [destruct Hsm; by split|done..| |]; cbn.
    + intros y. destruct (decide (y = x)) as [->|Hne].
      * rewrite lookup_insert, decide_True; [done|]. rewrite elem_snoc. tauto.
      * rewrite lookup_insert_ne by done. rewrite Hr. apply decide_ext. rewrite elem_snoc. tauto.
    + intros y. rewrite Hm. destruct (decide (y = x)) as [->|Hne].
      * assert (w_multi w !! x = None) as ->.
        { apply eq_None_not_Some. intros Ha%HM. by destruct (kind_excl s x). }
        cbn. by repeat case_decide.
      * apply decide_ext. rewrite elem_snoc. tauto.
  - rewrite Hpr in Hp. destruct (node_kind s x (Hlive x Hxl)) as [?|Ha]; [done|].
    destruct (proj2 (HM x) Ha) as [is His]. rewrite Hm, decide_False by done. rewrite His. cbn [opt_res mbind res_bind].
    rewrite ss_push_ok by (by eapply HJ). cbn [mbind res_bind]. rewrite Hi, Hsrc. cbn [opt_res mbind res_bind].
    eexists. split; [done|]. split_and!; [destruct Hsm; by split|done..| |]; cbn.
    + intros y. rewrite Hr. apply decide_ext. destruct (decide (y = x)) as [->|Hne]; [tauto|]. rewrite elem_snoc. tauto.
    + intros y. destruct (decide (y = x)) as [->|Hne].
      * rewrite lookup_insert, (decide_True (P := x ∈ l1 ++ [x])); [by rewrite His|]. rewrite elem_snoc. tauto.
      * rewrite lookup_insert_ne by done. rewrite Hm. apply decide_ext. rewrite elem_snoc. tauto.
Qed.
Lemma split_edges_ok s J w l :
  hasres s w → (∀ k, k ∈ l → is_edge s k) →
  ∃ w', fold_res (split_edge J) w l = Ok w' ∧ same w w' ∧ w_isl w' = w_isl w ∧ w_valid w' = w_valid w ∧
    w_next w' = w_next w ∧ w_asleep w' = w_asleep w ∧ w_fast w' = w_fast w ∧ w_multi w' = w_multi w ∧
    (∀ y, w_res w' !! y = if decide (y ∈ l) then Some (Some J) else w_res w !! y).
Proof.
  intros [HR HM] Hlive.
  destruct (fold_res_ind (split_edge J) (λ l w', same w w' ∧ w_isl w' = w_isl w ∧ w_valid w' = w_valid w ∧
    w_next w' = w_next w ∧ w_asleep w' = w_asleep w ∧ w_fast w' = w_fast w ∧ w_multi w' = w_multi w ∧
    (∀ y, w_res w' !! y = if decide (y ∈ l) then Some (Some J) else w_res w !! y)) l w) as (w' & Hw' & H);
    [| |by exists w'].
  { split_and!; [apply same_refl|done..|]; intros y; rewrite decide_False; try done; intros H; by apply elem_of_nil in H. }
  intros l1 x l2 w1 Hl (Hsm & Hi & Hv & Hnx & Has & Hf & Hm & Hr).
  unfold split_edge. assert (is_Some (w_res w1 !! x)) as [r Hrx].
  { rewrite Hr. case_decide; [by eexists|]. apply HR. right. apply Hlive. rewrite Hl, elem_of_app, elem_of_cons. tauto. }
  rewrite Hrx. cbn [opt_res mbind res_bind]. eexists. split; [done|].
  split_and!; [destruct Hsm; by split|done..|]; cbn.
  intros y. destruct (decide (y = x)) as [->|Hne].
  - rewrite lookup_insert, decide_True; [done|]. rewrite elem_snoc. tauto.
  - rewrite lookup_insert_ne by done. rewrite Hr. apply decide_ext. rewrite elem_snoc. tauto.
Qed.

Lemma split_new_ok s src w c il :
  store s w → (∀ x, is_Some (w_res w !! x) ↔ procedural s x ∨ is_edge s x) → w_isl w !! src = Some il →
  NoDup c.1 → NoDup c.2 → (∀ x, x ∈ c.1 → is_Some (sg_nodes s !! x)) → (∀ k, k ∈ c.2 → is_edge s k) →
  ∃ w', split_new src w c = Ok w' ∧ same w w' ∧ w_fast w' = w_fast w ∧ w_next w' = S (w_next w) ∧ store s w' ∧
    w_isl w' = <[w_next w := Island c.1 c.2 None]> (w_isl w) ∧
    (∀ y, w_res w' !! y = if decide ((procedural s y ∧ y ∈ c.1) ∨ y ∈ c.2) then Some (Some (w_next w)) else w_res w !! y) ∧
    (∀ y, y ∈ w_asleep w' ↔ y ∈ w_asleep w ∧ y ≠ w_next w ∧ y ∉ c.1 ∧ y ∉ c.2).
Proof.
  intros ST HR Hsrc Hn1 Hn2 Hl1 Hl2. unfold split_new. cbn [create]. set (J := w_next w).
  set (w0 := set_isl (set_valid (set_next w (S J)) ({[J]} ∪ w_valid w)) (<[J := Island c.1 c.2 None]> (w_isl w))).
  assert (Hno : w_isl w !! J = None).
  { apply eq_None_not_Some. intros H. pose proof (st_isl _ _ ST _ H). unfold J in *. lia. }
  assert (Hne : src ≠ J) by congruence.
  destruct (split_nodes_ok s src J w0 (reverse c.1) il) as (w1 & Hw1 & Hsm1 & Hi1 & Hv1 & Hnx1 & Has1 & Hf1 & Hr1 & Hm1).
  { split; [done|apply ST]. }
  { apply ST. }
  { by rewrite reverse_Permutation. }
  { intros x Hx. rewrite elem_of_reverse in Hx. auto. }
  { intros x is Hx HJ. cbn in Hx. destruct (st_mnd _ _ ST x is Hx) as [_ H]. specialize (H J HJ). unfold J in H. lia. }
  { cbn. by rewrite lookup_insert_ne. }
  change (w_isl (set_valid (set_next w (S J)) ({[J]} ∪ w_valid w))) with (w_isl w). fold w0.
  rewrite Hw1. cbn [mbind res_bind].
  destruct (split_edges_ok s J w1 (reverse c.2)) as (w2 & Hw2 & Hsm2 & Hi2 & Hv2 & Hnx2 & Has2 & Hf2 & Hm2 & Hr2).
  { split.
    - intros x. rewrite Hr1. case_decide as Hd; [|apply HR]. split; [|by eexists]. intros _. left. tauto.
    - intros x. rewrite Hm1. rewrite <- (st_multi _ _ ST x). cbn. case_decide; [|done]. by rewrite fmap_is_Some. }
  { intros k Hk. rewrite elem_of_reverse in Hk. auto. }
  rewrite Hw2. cbn [mbind res_bind]. eexists. split; [reflexivity|].
  assert (Hsm : same w w2).
  { eapply same_trans; [|exact Hsm2]. eapply same_trans; [|exact Hsm1]. by split. }
  assert (Hres : ∀ y, w_res w2 !! y = if decide ((procedural s y ∧ y ∈ c.1) ∨ y ∈ c.2) then Some (Some J) else w_res w !! y).
  { intros y. rewrite Hr2, Hr1. repeat case_decide; rewrite ?elem_of_reverse in *; try tauto; done. }
  assert (Hmul : ∀ y, w_multi w2 !! y = if decide (y ∈ c.1) then
       (λ is, if decide (y ∈ il_nodes il) then is ++ [J] else ss_pop src (is ++ [J])) <$> w_multi w !! y else w_multi w !! y).
  { intros y. rewrite Hm2, Hm1. apply decide_ext. by rewrite elem_of_reverse. }
  assert (Hisl : w_isl w2 = <[J := Island c.1 c.2 None]> (w_isl w)) by (by rewrite Hi2, Hi1).
  assert (Hnx : w_next w2 = S J) by (by rewrite Hnx2, Hnx1).
  unfold unsleep. split_and!; cbn; [destruct Hsm; by split|by rewrite Hf2, Hf1|done| |done|done|].
  - (* store *)
    assert (Hii : ∀ K, is_island w2 K ↔ K = J ∨ is_island w K).
    { intros K. unfold is_island. rewrite Hisl. destruct (decide (K = J)) as [->|HK].
      - rewrite lookup_insert. split; [by left|]. by eexists.
      - rewrite lookup_insert_ne by done. tauto. }
    assert (Hsetlist : ∀ y l, w_multi w2 !! y = Some l → ∃ l0, w_multi w !! y = Some l0 ∧ NoDup l ∧
      (∀ K, K ∈ l → K = J ∨ K ∈ l0) ∧ (y ∈ c.1 → J ∈ l) ∧ (∀ K, K ∈ l0 → (K = src → y ∈ il_nodes il ∨ y ∉ c.1) → K ∈ l)).
    { intros y l Hl. rewrite Hmul in Hl. case_decide as Hy.
      - destruct (w_multi w !! y) as [l0|] eqn:E; [|done]. cbn in Hl. injection Hl as <-. exists l0. split; [done|].
        destruct (st_mnd _ _ ST y l0 E) as [Hnd0 Hb0].
        assert (Hnd1 : NoDup (l0 ++ [J])).
        { apply NoDup_app. split_and!; [done| |apply NoDup_singleton]. intros K HK ->%elem_of_list_singleton.
          specialize (Hb0 J HK). unfold J in Hb0. lia. }
        case_decide as Hyn.
        + split_and!; [done|..].
          * intros K. rewrite elem_snoc. tauto.
          * intros _. rewrite elem_snoc. tauto.
          * intros K HK _. rewrite elem_snoc. tauto.
        + destruct (ss_pop_spec src (l0 ++ [J]) Hnd1) as [Q1 Q2]. split_and!; [done|..].
          * intros K. rewrite Q2, elem_snoc. tauto.
          * intros _. rewrite Q2, elem_snoc. split; [tauto|]. done.
          * intros K HK Himp. rewrite Q2, elem_snoc. split; [tauto|]. intros ->. tauto.
      - exists l. destruct (st_mnd _ _ ST y l Hl) as [Hnd0 Hb0]. split_and!; [done|done|tauto|done|done]. }
    split; cbn.
    + intros K il'. rewrite Hisl. intros [[<- <-]|[_ H]]%lookup_insert_Some; [done|]. by eapply (st_nd _ _ ST).
    + intros x. rewrite Hmul, <- (st_multi _ _ ST x). case_decide; [|done]. by rewrite fmap_is_Some.
    + intros x l Hl. destruct (Hsetlist x l Hl) as (l0 & Hl0 & Hnd & Hk & _). split; [done|].
      intros K HK. rewrite Hnx. destruct (Hk K HK) as [->|HK0]; [lia|]. destruct (st_mnd _ _ ST x l0 Hl0) as [_ H]. specialize (H K HK0).
      unfold J. lia.
    + intros K x l HK Hl. destruct (Hsetlist x l Hl) as (l0 & Hl0 & Hnd & Hk & HJl & Hk2).
      destruct HK as (il' & HK & Hx). cbn in HK. rewrite Hisl in HK. apply lookup_insert_Some in HK as [[<- <-]|[HKJ HK]]; [by apply HJl|].
      apply Hk2.
      * eapply (st_mem _ _ ST); [|done]. by exists il'.
      * intros ->. left. by simplify_eq.
    + intros x. change (is_island (set_asleep w2 (w_asleep w2 ∖ ({[J]} ∪ lst c.1 ∪ lst c.2))) x) with (is_island w2 x).
      rewrite Hii, Hv2, Hv1. cbn. rewrite elem_of_union, elem_of_singleton, (st_valid _ _ ST). tauto.
    + intros x Hx. change (is_island (set_asleep w2 (w_asleep w2 ∖ ({[J]} ∪ lst c.1 ∪ lst c.2))) x) with (is_island w2 x).
      rewrite Hii, Hnx. destruct (st_node _ _ ST x Hx) as (H1 & H2 & H3). unfold J in *. split_and!; [lia|done|]. intros [->|?]; [lia|done].
    + intros x Hx. change (is_island (set_asleep w2 (w_asleep w2 ∖ ({[J]} ∪ lst c.1 ∪ lst c.2))) x) with (is_island w2 x).
      rewrite Hii, Hnx. destruct (st_edge _ _ ST x Hx) as (H1 & H2). unfold J in *. split_and!; [lia|]. intros [->|?]; [lia|done].
    + intros x. change (is_island (set_asleep w2 (w_asleep w2 ∖ ({[J]} ∪ lst c.1 ∪ lst c.2))) x) with (is_island w2 x).
      rewrite Hii, Hnx. intros [->|Hx]; [lia|]. pose proof (st_isl _ _ ST x Hx). unfold J. lia.
    + intros x. rewrite (sm_split _ _ Hsm), (sm_wake _ _ Hsm), Hnx. intros Hx. destruct (st_lists _ _ ST x Hx) as (H1 & H2 & H3).
      unfold J. split_and!; [lia|done..].
    + rewrite (sm_proc _ _ Hsm). apply ST.
  - intros y. rewrite elem_of_difference, !elem_of_union, elem_of_singleton, !elem_lst, Has2, Has1. cbn. tauto.
Qed.

(** [y] becomes a resident of the island made from the component [c] *)
Definition in_comp (s : sgraph) (c : list nat * list nat) (y : nat) : Prop := (procedural s y ∧ y ∈ c.1) ∨ y ∈ c.2.
Global Instance in_comp_dec s c y : Decision (in_comp s c y).
Proof. unfold in_comp, procedural. apply _. Defined.
Definition good_comp (s : sgraph) (c : list nat * list nat) : Prop :=
  NoDup c.1 ∧ NoDup c.2 ∧ (∀ x, x ∈ c.1 → is_Some (sg_nodes s !! x)) ∧ (∀ k, k ∈ c.2 → is_edge s k).

Lemma split_rest_ok s src w cs il :
  store s w → (∀ x, is_Some (w_res w !! x) ↔ procedural s x ∨ is_edge s x) → w_isl w !! src = Some il →
  (∀ c, c ∈ cs → good_comp s c) →
  (∀ i j c c' y, cs !! i = Some c → cs !! j = Some c' → in_comp s c y → in_comp s c' y → i = j) →
  ∃ w', fold_res (split_new src) w cs = Ok w' ∧ same w w' ∧ w_fast w' = w_fast w ∧ store s w' ∧
    (∀ K, w_isl w' !! K = if decide (K < w_next w) then w_isl w !! K else (λ c, Island c.1 c.2 None) <$> cs !! (K - w_next w)) ∧
    (∀ i c y, cs !! i = Some c → in_comp s c y → w_res w' !! y = Some (Some (w_next w + i))) ∧
    (∀ y, (∀ c, c ∈ cs → ¬ in_comp s c y) → w_res w' !! y = w_res w !! y) ∧
    (∀ y, y ∈ w_asleep w' ↔ y ∈ w_asleep w ∧ ¬ (w_next w ≤ y < w_next w + length cs) ∧ ∀ c, c ∈ cs → y ∉ c.1 ∧ y ∉ c.2).
Proof.
  intros ST HR Hsrc Hg Hdis. set (n0 := w_next w).
  destruct (fold_res_ind (split_new src) (λ cs w', same w w' ∧ w_fast w' = w_fast w ∧ store s w' ∧
    w_next w' = n0 + length cs ∧
    (∀ K, w_isl w' !! K = if decide (K < n0) then w_isl w !! K else (λ c, Island c.1 c.2 None) <$> cs !! (K - n0)) ∧
    (∀ i c y, cs !! i = Some c → in_comp s c y → w_res w' !! y = Some (Some (n0 + i))) ∧
    (∀ y, (∀ c, c ∈ cs → ¬ in_comp s c y) → w_res w' !! y = w_res w !! y) ∧
    (∀ y, y ∈ w_asleep w' ↔ y ∈ w_asleep w ∧ ¬ (n0 ≤ y < n0 + length cs) ∧ ∀ c, c ∈ cs → y ∉ c.1 ∧ y ∉ c.2)) cs w)
    as (w' & Hw' & H1 & H2 & H3 & _ & H4 & H5 & H6 & H7); [| |by exists w'].
  { split_and!; [apply same_refl|done|done|cbn; lia| |done|done|].
    - intros K. rewrite lookup_nil. cbn. case_decide as HK; [done|]. apply eq_None_not_Some. intros Hi%(st_isl _ _ ST). unfold n0 in *. lia.
    - intros y. cbn. split; [|tauto]. intros Hy. split_and!; [done|lia|]. intros c Hc. by apply elem_of_nil in Hc. }
  intros l1 c l2 w1 Hl (Hsm & Hf & ST1 & Hnx & Hi & Hr1 & Hr2 & Has).
  assert (Hc : c ∈ cs) by (rewrite Hl, elem_of_app, elem_of_cons; tauto).
  assert (Hin : ∀ i c', l1 !! i = Some c' → cs !! i = Some c').
  { intros i c' Hi'. rewrite Hl. by apply lookup_app_l_Some. }
  assert (Hcl : cs !! length l1 = Some c) by (rewrite Hl; by apply list_lookup_middle).
  assert (Hdec : ∀ y, (∃ i c', l1 !! i = Some c' ∧ in_comp s c' y) ∨ ∀ c', c' ∈ l1 → ¬ in_comp s c' y).
  { intros y. destruct (decide (Exists (λ c', in_comp s c' y) l1)) as [H|H].
    - left. apply Exists_exists in H as (c' & [i Hi']%elem_of_list_lookup & H). eauto.
    - right. intros c' Hc' Hy. apply H, Exists_exists. eauto. }
  destruct (Hg c Hc) as (N1 & N2 & L1 & L2).
  destruct (split_new_ok s src w1 c il) as (w2 & Hw2 & Hsm2 & Hf2 & Hnx2 & ST2 & Hi2 & Hr & Ha2); try done.
  { intros x. rewrite <- HR. destruct (Hdec x) as [(i & c' & Hi' & Hy)|Hn]; [|by rewrite Hr2].
    rewrite (Hr1 i c') by done. split; [|by eexists]. intros _. apply HR. destruct Hy as [[? _]|Hy]; [by left|right].
    destruct (Hg c') as (_ & _ & _ & L2'); [by eapply elem_of_list_lookup_2, Hin|auto]. }
  { rewrite Hi, decide_True; [done|]. apply (st_isl _ _ ST). by eexists. }
  exists w2. split; [done|]. rewrite app_length. cbn [length].
  split_and!; [by eapply same_trans|by rewrite Hf2|done|lia|..].
  - intros K. rewrite Hi2, Hnx. destruct (decide (K = n0 + length l1)) as [->|HK].
    + rewrite lookup_insert, decide_False by lia. replace (n0 + length l1 - n0) with (length l1) by lia.
      by rewrite list_lookup_middle.
    + rewrite lookup_insert_ne by done. rewrite Hi. case_decide as Hd; [done|].
      destruct (decide (K - n0 < length l1)).
      * by rewrite lookup_app_l.
      * rewrite !lookup_ge_None_2; [done|rewrite app_length; cbn; lia|lia].
  - intros i c' y Hi' Hy. rewrite Hr. destruct (decide (i < length l1)) as [Hlt|Hlt].
    + rewrite lookup_app_l in Hi' by done. rewrite decide_False; [by apply (Hr1 i c')|].
      intros Hyc. assert (i = length l1); [|lia]. by eapply (Hdis _ _ c' c y); [apply Hin|..].
    + assert (i = length l1) as ->.
      { apply lookup_lt_Some in Hi'. rewrite app_length in Hi'. cbn in Hi'. lia. }
      rewrite list_lookup_middle in Hi' by done. simplify_eq. rewrite decide_True by done. by rewrite Hnx.
  - intros y Hy. rewrite Hr, decide_False.
    + apply Hr2. intros c' Hc'. apply Hy. apply elem_snoc. by left.
    + apply Hy, elem_snoc. by right.
  - intros y. rewrite Ha2, Has, Hnx. split.
    + intros ((Q1 & Q2 & Q3) & Q4 & Q5 & Q6). split_and!; [done|lia|]. intros c' [Hc'| ->]%elem_snoc; [auto|done].
    + intros (Q1 & Q2 & Q3). split_and!; [done|lia| |lia|..].
      * intros c' Hc'. apply Q3, elem_snoc. by left.
      * apply Q3, elem_snoc. by right.
      * apply Q3, elem_snoc. by right.
Qed.

(** ** The component kept by the island *)
Lemma biggest_idx_lt cs : ∀ i best size, best ≤ i → (cs = [] → best < i) → biggest_idx cs i best size < i + length cs.
Proof.
  induction cs as [|c cs IH]; intros i best size H1 H2; cbn [biggest_idx length]; [specialize (H2 eq_refl); lia|].
  case_decide; (eapply Nat.lt_le_trans; [apply IH|lia]); lia.
Qed.
Lemma swap_last_perm {A} (cs : list A) b c : cs !! b = Some c → cs ≡ₚ c :: swap_last b cs.
Proof.
  intros Hb. unfold swap_last. destruct (last cs) as [y|] eqn:Hl.
  2:{ apply last_None in Hl as ->. done. }
  apply last_Some in Hl as [l ->]. rewrite app_length. cbn [length]. replace (length l + 1 - 1) with (length l) by lia.
  destruct (decide (b < length l)) as [Hlt|Hlt].
  - rewrite lookup_app_l in Hb by done. rewrite insert_app_l by done. rewrite take_app_alt by (by rewrite insert_length).
    assert (Hby : <[b := y]> l !! b = Some y) by (by apply list_lookup_insert).
    rewrite (delete_Permutation _ _ _ Hby), (delete_Permutation l b c Hb) at 1.
    rewrite !delete_take_drop, take_insert, drop_insert_gt by lia.
    rewrite <- Permutation_cons_append. apply perm_swap.
  - assert (b = length l) as ->.
    { apply lookup_lt_Some in Hb. rewrite app_length in Hb. cbn in Hb. lia. }
    rewrite list_lookup_middle in Hb by done. simplify_eq. rewrite insert_app_r_alt by lia.
    rewrite take_app. symmetry. apply Permutation_cons_append.
Qed.
