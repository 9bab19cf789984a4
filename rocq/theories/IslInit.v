(** init_new_nodes_and_edges keeps the invariants and leaves nothing without an island. *)
From Coq Require Import ZArith.
From stdpp Require Import sorting.
From Verif Require Import Outcome FreeListModel FreeListProofs GraphModel GraphSpec GraphProofs GraphHist GraphWalk GraphMain
  IslModel IslSpec IslBase IslInv IslData IslRel IslReach.

Record inv (s : sgraph) (m : mgraph) (w : world) : Prop := {
  iv_part : part s (w_res w) (member w) (emember w);
  iv_store : store s w;
  iv_slp : slp w;
  iv_rel : rel s m w;
  iv_split : NoDup (w_split w)
}.
Lemma inv_sep s m w : inv s m w → sep s.
Proof. intros I x Hx He. by destruct (st_node _ _ (iv_store _ _ _ I) x Hx) as (_ & ? & _). Qed.

(** What the update of the islands does to stamps and the sleeping *)
Record keeps (w w' : world) : Prop := {
  kp_stamp : ∀ h il', w_isl w' !! h = Some il' →
    il_sleep il' = None ∨ ∃ il, w_isl w !! h = Some il ∧ il_sleep il' = il_sleep il;
  kp_asleep : ∀ x, x ∈ w_asleep w' → x ∈ w_asleep w;
  kp_fast : w_fast w' = w_fast w;
  kp_nosleep : w_nosleep w' = w_nosleep w;
  kp_last : w_last w' = w_last w
}.
Lemma keeps_refl w : keeps w w.
Proof. split; try done. intros h il H. right. eauto. Qed.
Lemma keeps_trans w w' w'' : keeps w w' → keeps w' w'' → keeps w w''.
Proof.
  intros [A1 A2 A3 A4 A5] [B1 B2 B3 B4 B5]. split; [|auto|congruence..].
  intros h il H. destruct (B1 h il H) as [?|(il' & H' & E)]; [by left|].
  destruct (A1 h il' H') as [?|(il'' & H'' & E')]; [left; congruence|]. right. exists il''. split; [done|congruence].
Qed.

(** ** Chains *)
Lemma pconn_left s x y : pconn s x y → procedural s x.
Proof. induction 1; done. Qed.
Lemma pconn_right s x y : pconn s x y → procedural s y.
Proof. by destruct 1. Qed.
Lemma pconn_trans s x y z : pconn s x y → pconn s y z → pconn s x z.
Proof. intros H. induction 1 as [|u v H1 IH Hl Hp]; [done|]. by eapply pc_step. Qed.
Lemma pconn_link s x y : procedural s x → procedural s y → linked s x y → pconn s x y.
Proof. intros. eapply pc_step; [by apply pc_refl|done..]. Qed.
Lemma pconn_sym s x y : pconn s x y → pconn s y x.
Proof.
  induction 1 as [|u v H1 IH Hl Hp]; [by apply pc_refl|]. eapply pconn_trans; [|exact IH].
  apply pconn_link; [done|by eapply pconn_right|by apply linked_sym].
Qed.
Lemma pconn_mono s s' x y : (∀ x, procedural s x → procedural s' x) → (∀ x y, linked s x y → linked s' x y) →
  pconn s x y → pconn s' x y.
Proof. intros H1 H2. induction 1 as [|u v H IH Hl Hp]; [apply pc_refl; auto|]. eapply pc_step; eauto. Qed.

Definition tight (s : sgraph) (w : world) (h : nat) : Prop :=
  ∀ x y, member w h x → member w h y → procedural s x → procedural s y → pconn s x y.
Definition no_null_edge (s : sgraph) (w : world) : Prop := ∀ k x, ends s k x → procedural s x → ¬ null w k.
Definition complete (s : sgraph) (w : world) : Prop := ∀ x, procedural s x → ¬ needs s w x.

(** ** Absorbing one component *)
Section absorbed.
Context (s : sgraph) (m : mgraph) (w w' : world) (cn ce is : list nat) (h : nat) (X : nat → Prop).
Context (IV : inv s m w) (A : absorbed s w w' cn ce is h) (G : gathered s (w_res w) X cn ce is).
Context (Hsound : ∀ J, J ∈ is → touches s w X J).

Lemma ab_islands J : J ∈ is → is_island w J.
Proof using All.
  intros HJ. destruct (Hsound J HJ) as (x & y & _ & _ & Hp & Hr).
  apply (pt_node _ _ _ _ (iv_part _ _ _ IV)) in Hr as (il & Hil & _); [|done]. by eexists.
Qed.
Lemma ab_fresh : is = [] → ∀ y, ¬ member w h y ∧ ¬ emember w h y ∧ ¬ in_island w y h ∧ ¬ is_island w h.
Proof using All.
  intros Hi y. destruct (ab_h _ _ _ _ _ _ _ A) as [H|[_ ->]]; [rewrite Hi in H; by apply elem_of_nil in H|].
  assert (Hn : ¬ is_island w (w_next w)).
  { intros H%(st_isl _ _ (iv_store _ _ _ IV)). lia. }
  split_and!; [| | |done].
  - intros (il & H & _). apply Hn. by eexists.
  - intros (il & H & _). apply Hn. by eexists.
  - intros Hr. assert (is_Some (w_res w !! y)) as [Hp|Hk]%(pt_res _ _ _ _ (iv_part _ _ _ IV)); [by eexists|..].
    + apply (pt_node _ _ _ _ (iv_part _ _ _ IV)) in Hr as (il & H & _); [|done]. apply Hn. by eexists.
    + apply (pt_edge _ _ _ _ (iv_part _ _ _ IV)) in Hr as (il & H & _); [|done]. apply Hn. by eexists.
Qed.
Lemma in_island_is y J : in_island w y J → is_island w J.
Proof using All.
  intros Hr. assert (is_Some (w_res w !! y)) as [Hp|Hk]%(pt_res _ _ _ _ (iv_part _ _ _ IV)); [by eexists|..].
  - apply (pt_node _ _ _ _ (iv_part _ _ _ IV)) in Hr as (il & H & _); [|done]. by eexists.
  - apply (pt_edge _ _ _ _ (iv_part _ _ _ IV)) in Hr as (il & H & _); [|done]. by eexists.
Qed.
Lemma res_not_island y r : w_res w !! y = Some r → ¬ is_island w y ∧ y < w_next w.
Proof using All.
  intros Hr. assert (is_Some (w_res w !! y)) as [Hp|Hk]%(pt_res _ _ _ _ (iv_part _ _ _ IV)); [by eexists|..].
  - by destruct (st_node _ _ (iv_store _ _ _ IV) y (procedural_node _ _ Hp)) as (? & ? & ?).
  - by destruct (st_edge _ _ (iv_store _ _ _ IV) y Hk) as (? & ?).
Qed.
Lemma moved_res y : moved s (w_res w) cn ce is y → ∃ r, w_res w !! y = Some r.
Proof using All.
  intros [[Hp _]|[Hc|(J & _ & H)]]; [| |eauto].
  - apply (pt_res _ _ _ _ (iv_part _ _ _ IV)). by left.
  - apply (ga_ce _ _ _ _ _ _ G) in Hc as [? _]. eauto.
Qed.

Lemma absorbed_store : store s w'.
Proof using All.
  pose proof (iv_store _ _ _ IV) as ST. destruct (ab_next _ _ _ _ _ _ _ A) as [Hnx Hnx'].
  assert (Hh : h < w_next w' ∧ ¬ is_Some (sg_nodes s !! h) ∧ ¬ is_edge s h).
  { destruct (ab_h _ _ _ _ _ _ _ A) as [H|[Hi ->]].
    - apply ab_islands in H. pose proof (st_isl _ _ ST h H). split_and!; [lia| |].
      + intros Hx. by destruct (st_node _ _ ST h Hx) as (_ & _ & ?).
      + intros Hx. by destruct (st_edge _ _ ST h Hx) as (_ & ?).
    - split_and!; [rewrite Hnx' by done; lia| |].
      + intros Hx. destruct (st_node _ _ ST _ Hx) as (? & _). lia.
      + intros Hx. destruct (st_edge _ _ ST _ Hx) as (? & _). lia. }
  split.
  - apply (ab_nd _ _ _ _ _ _ _ A).
  - intros x. rewrite <- (st_multi _ _ ST x). destruct (w_multi w !! x) as [l|] eqn:E.
    + destruct (ab_multi _ _ _ _ _ _ _ A x l E) as (l' & -> & _). split; by eauto.
    + by rewrite (ab_multi0 _ _ _ _ _ _ _ A x E).
  - intros x l Hl. destruct (w_multi w !! x) as [l0|] eqn:E; [|by rewrite (ab_multi0 _ _ _ _ _ _ _ A x E) in Hl].
    destruct (ab_multi _ _ _ _ _ _ _ A x l0 E) as (l' & Hl' & Hnd & Hi). rewrite Hl in Hl'. injection Hl' as <-.
    split; [done|]. intros J [[-> _]|(_ & _ & HJ)]%Hi; [tauto|]. destruct (st_mnd _ _ ST x l0 E) as [_ H]. specialize (H J HJ). lia.
  - intros J x l HJ Hl. destruct (w_multi w !! x) as [l0|] eqn:E; [|by rewrite (ab_multi0 _ _ _ _ _ _ _ A x E) in Hl].
    destruct (ab_multi _ _ _ _ _ _ _ A x l0 E) as (l' & Hl' & Hnd & Hi). rewrite Hl in Hl'. injection Hl' as <-.
    apply Hi. apply (ab_mem _ _ _ _ _ _ _ A) in HJ as [(-> & [?|(K & HK & Hm)])|(? & ? & Hm)].
    + left. auto.
    + left. split; [done|]. destruct (decide (K = h)) as [->|Hne].
      * right. left. by eapply (st_mem _ _ ST).
      * right. right. eauto.
    + right. split_and!; [done..|]. by eapply (st_mem _ _ ST).
  - intros x. rewrite (ab_valid _ _ _ _ _ _ _ A), (st_valid _ _ ST), (ab_isl _ _ _ _ _ _ _ A). split.
    + intros [->|([?|[?|?]] & ?)]; tauto.
    + intros [H|[H|[->|[? ?]]]]; [..|by left|tauto].
      * right. split; [by left|]. intros Hi%ab_islands. by destruct (st_node _ _ ST x H) as (_ & _ & ?).
      * right. split; [by right; left|]. intros Hi%ab_islands. by destruct (st_edge _ _ ST x H) as (_ & ?).
  - intros x Hx. destruct (st_node _ _ ST x Hx) as (H1 & H2 & H3). rewrite (ab_isl _ _ _ _ _ _ _ A).
    split_and!; [lia|done|]. intros [->|[_ ?]]; tauto.
  - intros x Hx. destruct (st_edge _ _ ST x Hx) as (H1 & H2). rewrite (ab_isl _ _ _ _ _ _ _ A).
    split_and!; [lia|]. intros [->|[_ ?]]; tauto.
  - intros x. rewrite (ab_isl _ _ _ _ _ _ _ A). intros [->|[_ H]]; [tauto|]. apply (st_isl _ _ ST) in H. lia.
  - intros x. rewrite (sm_split _ _ (ab_same _ _ _ _ _ _ _ A)), (sm_wake _ _ (ab_same _ _ _ _ _ _ _ A)).
    intros Hx. destruct (st_lists _ _ ST x Hx) as (? & ? & ?). split_and!; [lia|done..].
  - rewrite (sm_proc _ _ (ab_same _ _ _ _ _ _ _ A)). apply (st_proc _ _ ST).
Qed.

Lemma absorbed_slp : slp w'.
Proof using All.
  pose proof (iv_store _ _ _ IV) as ST. pose proof (iv_slp _ _ _ IV) as SL. split.
  - intros x Hx. apply (ab_asleep _ _ _ _ _ _ _ A) in Hx as (Hx & Hm & Hi & Hh).
    destruct (sl_up _ SL x Hx) as [H|(J & HJ & HJs)].
    + left. apply (ab_isl _ _ _ _ _ _ _ A). by right.
    + right. exists J. assert (HJi : J ∉ is). { intros HJi. apply Hm. right. right. eauto. }
      split.
      * unfold in_island. rewrite (ab_res2 _ _ _ _ _ _ _ A) by done. done.
      * apply (ab_asleep _ _ _ _ _ _ _ A). split_and!; [done| |done|].
        -- intros HmJ. destruct (moved_res J HmJ) as [r Hr]. destruct (res_not_island J r Hr) as [? _].
           by apply in_island_is in HJ.
        -- intros ->. destruct (ab_h _ _ _ _ _ _ _ A) as [?|[Hi' _]]; [done|].
           by destruct (ab_fresh Hi' x) as (_ & _ & ? & _).
  - intros x J HJ HJs. apply (ab_asleep _ _ _ _ _ _ _ A) in HJs as (HJs & HJm & HJi & HJh).
    assert (Hm : ¬ moved s (w_res w) cn ce is x).
    { intros Hm. unfold in_island in HJ. rewrite (ab_res1 _ _ _ _ _ _ _ A) in HJ by done. congruence. }
    unfold in_island in HJ. rewrite (ab_res2 _ _ _ _ _ _ _ A) in HJ by done.
    apply (ab_asleep _ _ _ _ _ _ _ A). destruct (res_not_island x _ HJ) as [Hni Hlt]. split_and!; [|done| |].
    + by eapply (sl_down _ SL).
    + intros Hi. by apply Hni, ab_islands.
    + intros ->. destruct (ab_h _ _ _ _ _ _ _ A) as [?|[Hi' Hnx]]; [by apply Hni, ab_islands|]. lia.
Qed.

Lemma absorbed_inv : inv s m w'.
Proof using All.
  pose proof (ab_same _ _ _ _ _ _ _ A) as SM. split.
  - eapply (absorb_part s (w_res w) (member w) (emember w)) with (h := h); [apply IV|by eapply inv_sep|by eapply rel_wf, IV|exact G|..].
    + destruct (ab_h _ _ _ _ _ _ _ A) as [?|[Hi _]]; [by left|]. right. split; [done|]. intros y.
      by destruct (ab_fresh Hi y) as (? & ? & _).
    + apply (ab_res1 _ _ _ _ _ _ _ A).
    + apply (ab_res2 _ _ _ _ _ _ _ A).
    + apply (ab_mem _ _ _ _ _ _ _ A).
    + apply (ab_emem _ _ _ _ _ _ _ A).
  - apply absorbed_store.
  - apply absorbed_slp.
  - eapply rel_same; [apply IV|apply SM..].
  - rewrite (sm_split _ _ SM). apply IV.
Qed.

Lemma absorbed_keeps : keeps w w'.
Proof using All.
  pose proof (ab_same _ _ _ _ _ _ _ A) as SM. split.
  - intros J il HJ. destruct (decide (J = h)) as [->|HJh].
    + destruct (ab_sleep _ _ _ _ _ _ _ A) as (il' & H1 & H2). rewrite HJ in H1. injection H1 as <-.
      destruct (w_isl w !! h) as [il0|]; [right; eauto|by left].
    + assert (is_island w' J) as [->|[HJi _]]%(ab_isl _ _ _ _ _ _ _ A); [by eexists|done|].
      right. exists il. rewrite <- (ab_other _ _ _ _ _ _ _ A J) by done. done.
  - intros x Hx. by apply (ab_asleep _ _ _ _ _ _ _ A) in Hx as [? _].
  - apply A.
  - apply SM.
  - apply SM.
Qed.

Lemma absorbed_null k : null w' k → null w k.
Proof using All.
  unfold null. intros Hk. destruct (moved_dec' s w cn ce is k) as [Hm|Hm].
  - rewrite (ab_res1 _ _ _ _ _ _ _ A) in Hk by done. done.
  - by rewrite (ab_res2 _ _ _ _ _ _ _ A) in Hk by done.
Qed.
Lemma absorbed_needs x : needs s w' x → needs s w x.
Proof using All. intros [?|(k & ? & ?)]; [left; by apply absorbed_null|]. right. exists k. split; [done|]. by apply absorbed_null. Qed.
Lemma absorbed_done x : X x → ¬ needs s w' x.
Proof using All.
  intros HX [Hn|(k & Hk & Hn)].
  - pose proof (absorbed_null _ Hn) as Hn0. unfold null in Hn. rewrite (ab_res1 _ _ _ _ _ _ _ A) in Hn; [done|].
    left. split; [by apply (ga_X _ _ _ _ _ _ G)|]. apply (ga_cn _ _ _ _ _ _ G). by left.
  - pose proof (absorbed_null _ Hn) as Hn0. unfold null in Hn. rewrite (ab_res1 _ _ _ _ _ _ _ A) in Hn; [done|].
    right. left. apply (ga_ce _ _ _ _ _ _ G). eauto.
Qed.
Lemma absorbed_awake x : X x → x ∉ w_asleep w'.
Proof using All.
  intros HX. rewrite (ab_asleep _ _ _ _ _ _ _ A). intros (_ & Hm & _). apply Hm.
  pose proof (ga_X _ _ _ _ _ _ G x HX) as Hp.
  assert (is_Some (w_res w !! x)) as [[J|] Hr] by (apply (pt_res _ _ _ _ (iv_part _ _ _ IV)); by left).
  - right. right. exists J. split; [|done]. eapply (ga_in _ _ _ _ _ _ G x x); auto.
  - left. split; [done|]. apply (ga_cn _ _ _ _ _ _ G). by left.
Qed.
Lemma absorbed_edge_done k x : X x → ends s k x → ¬ null w' k.
Proof using All.
  intros HX Hk Hn.
  pose proof (absorbed_null _ Hn) as Hn0. unfold null in Hn. rewrite (ab_res1 _ _ _ _ _ _ _ A) in Hn; [done|].
  right. left. apply (ga_ce _ _ _ _ _ _ G). eauto.
Qed.
Lemma absorbed_still x : procedural s x → ¬ X x → (∀ y, X y → linked s y x → False) → needs s w x → needs s w' x.
Proof using All.
  intros Hp HX Hl [Hn|(k & Hk & Hn)].
  - left. unfold null. rewrite (ab_res2 _ _ _ _ _ _ _ A); [done|]. unfold null in Hn. intros [[_ Hc]|[Hc|(J & _ & HJ)]].
    + apply (ga_cn _ _ _ _ _ _ G) in Hc as [[? _]|[Ha _]]; [done|]. by eapply kind_excl.
    + apply (ga_ce _ _ _ _ _ _ G) in Hc as (_ & y & _ & Hy). apply (inv_sep _ _ _ IV x); [by apply procedural_node|by eapply ends_edge].
    + congruence.
  - right. exists k. split; [done|]. unfold null. rewrite (ab_res2 _ _ _ _ _ _ _ A); [done|]. unfold null in Hn.
    intros [[Hpk _]|[Hc|(J & _ & HJ)]].
    + apply (inv_sep _ _ _ IV k); [by apply procedural_node|by eapply ends_edge].
    + apply (ga_ce _ _ _ _ _ _ G) in Hc as (_ & y & Hy & Hky). destruct (ends_two s k y x Hky Hk) as [->|?]; [done|]. by eapply Hl.
    + congruence.
Qed.

Lemma absorbed_tight :
  (∀ x y, X x → X y → pconn s x y) → (∃ x, X x) → (∀ J, J ∈ is → tight s w J) →
  (∀ J, J ∉ w_split w → tight s w J) → ∀ J, J ∉ w_split w' → tight s w' J.
Proof using All.
  intros HXc [x0 Hx0] His Ht J HJ. rewrite (sm_split _ _ (ab_same _ _ _ _ _ _ _ A)) in HJ.
  destruct (decide (J = h)) as [->|HJh].
  - assert (Hto : ∀ y, member w' h y → procedural s y → pconn s x0 y).
    { intros y Hy Hp. apply (ab_mem _ _ _ _ _ _ _ A) in Hy as [(_ & [Hy|(K & HK & Hy)])|(? & _)]; [..|done].
      - apply (ga_cn _ _ _ _ _ _ G) in Hy as [[? _]|[Ha _]]; [auto|]. by destruct (kind_excl s y).
      - destruct (Hsound K HK) as (a & b & Ha & Hab & Hb & Hr).
        assert (Hbm : member w K b) by (by apply (pt_node _ _ _ _ (iv_part _ _ _ IV))).
        assert (Hap : procedural s a) by (by apply (ga_X _ _ _ _ _ _ G)).
        apply pconn_trans with b; [apply pconn_trans with a; [by apply HXc|]|by apply (His K)].
        destruct Hab as [->|?]; [by apply pc_refl|by apply pconn_link]. }
    intros x y Hx Hy Hpx Hpy. apply pconn_trans with x0; [apply pconn_sym|]; auto.
  - assert (Hm : ∀ y, member w' J y → member w J y).
    { intros y Hy. apply (ab_mem _ _ _ _ _ _ _ A) in Hy as [[? _]|(_ & _ & ?)]; done. }
    intros x y Hx Hy. apply (Ht J); auto.
Qed.
End absorbed.

(** ** The loop over the starts *)
Record seen (s : sgraph) (w : world) (V K : gset nat) : Prop := {
  sn_V : ∀ y j, w_node w !! y = Some j → j ∈ V → procedural s y ∧ ∀ x, (x = y ∨ linked s y x) → procedural s x → ¬ needs s w x;
  sn_K : ∀ k e, w_edge w !! k = Some e → e ∈ K → ¬ null w k
}.

Section step.
Context (s : sgraph) (m : mgraph) (w : world) (V K : gset nat) (s0 x0 : nat).
Context (IV : inv s m w) (SN : seen s w V K) (Hs0 : w_node w !! x0 = Some s0) (HV0 : s0 ∉ V).
Context (Hp0 : procedural s x0) (Hn0 : needs s w x0).

Lemma visit_ok :
  ∃ c k c' w' h (X : nat → Prop),
    on_should w s0 (Coll [] [] [] ∅ ∅) = Ok (c, true) ∧
    walk_loop (WP true true (should w) false) (w_graph w) (S (fl_range (g_nodes (w_graph w)))) (Walk V K [s0] [] [] []) = Ok k ∧
    replay w (reverse (w_nodes k)) (Coll (c_nodes c) (c_edges c) (c_isles c) ({[s0]} ∪ V) K) = Ok c' ∧
    component w c' = Ok w' ∧ absorbed s w w' (c_nodes c') (c_edges c') (c_isles c') h ∧
    gathered s (w_res w) X (c_nodes c') (c_edges c') (c_isles c') ∧
    (∀ J, J ∈ c_isles c' → touches s w X J) ∧
    w_nc k = [] ∧ (∀ x i, w_node w !! x = Some i → (i ∈ w_visited k ↔ i ∈ V ∨ X x)) ∧
    (∀ z e, w_edge w !! z = Some e → (e ∈ w_vedges k ↔ e ∈ K ∨ ∃ x, X x ∧ ends s z x)) ∧
    X x0 ∧ (∀ x, X x → pconn s x0 x) ∧
    (∀ x y, X x → linked s x y → procedural s y → needs s w y → X y) ∧ (∀ x, X x → needs s w x).
Proof using All.
  pose proof (iv_rel _ _ _ IV) as R. pose proof (iv_part _ _ _ IV) as P.
  destruct (hist_inv _ _ _ (rl_hist _ _ _ R)) as [(N & E & LA & RG) _].
  destruct (walk_from (w_graph w) m N E LA RG (WP true true (should w) false) V K s0) as
    (k & Hk & Hnd & Hreach & Hlv & Hvis & Hend & Hved & Hedg & Hnc).
  { apply (rel_live _ _ _ R). eauto. } { done. }
  set (X := λ x, ∃ i, w_node w !! x = Some i ∧ i ∈ w_nodes k).
  assert (HXall : ∀ x, X x → procedural s x ∧ needs s w x).
  { intros x (i & Hx & Hi). apply Hreach in Hi. destruct Hi as [|j i Hj Hc Ha [Hsh _]].
    - by rewrite (rel_node_inj _ _ _ R x x0 s0).
    - cbn in Hsh. by apply (should_ok s m w R P x i). }
  assert (HXi : ∀ i, i ∈ w_nodes k → ∃ x, w_node w !! x = Some i ∧ X x).
  { intros i Hi. destruct (Hlv i Hi) as [Hl _]. apply (rel_live _ _ _ R) in Hl as [x Hx]. exists x. split; [done|]. by exists i. }
  assert (HX0 : X x0). { exists s0. split; [done|]. apply Hreach. constructor. }
  assert (HXc : ∀ x, X x → pconn s x0 x).
  { intros x (i & Hx & Hi). apply Hreach in Hi. revert x Hx. induction Hi as [|j i Hj IH Hc Ha [Hsh _]]; intros x Hx.
    - rewrite (rel_node_inj _ _ _ R x x0 s0) by done. by apply pc_refl.
    - destruct (proj1 (rel_connecting _ _ _ R j) Hc) as (y & Hy & Hyp). apply pc_step with y.
      + by apply IH.
      + by apply (rel_adjacent _ _ _ R y x j i).
      + cbn in Hsh. by apply (should_ok s m w R P x i) in Hsh as [? _]. }
  assert (HXV : ∀ x y, X x → linked s x y → procedural s y → ∀ j, w_node w !! y = Some j → j ∉ V).
  { intros x y HXx Hl Hyp j Hy Hj. destruct (sn_V _ _ _ _ SN y j Hy Hj) as [_ Hc].
    destruct (HXall x HXx) as [Hxp Hxn]. apply (Hc x); [|done|done]. right. by apply linked_sym. }
  assert (Hclosed : ∀ x y, X x → linked s x y → procedural s y → needs s w y → X y).
  { intros x y HXx Hl Hyp Hyn. assert (is_Some (w_node w !! y)) as [j Hj] by (by apply (rl_live _ _ _ R), procedural_node).
    exists j. split; [done|]. pose proof HXx as (i & Hx & Hi). apply Hreach. apply rp_step with i.
    - by apply Hreach.
    - apply (rel_connecting' _ _ _ R x i Hx). by apply HXall.
    - by apply (rel_adjacent _ _ _ R x y i j).
    - split; [by apply (should_ok s m w R P y j)|]. by eapply HXV. }
  (* the start *)
  assert (∃ c, on_should w s0 (Coll [] [] [] ∅ ∅) = Ok (c, true) ∧ c_nodes c = [] ∧ c_edges c = [] ∧
    (∀ J, J ∈ c_isles c ↔ w_res w !! x0 = Some (Some J)) ∧ NoDup (c_isles c)) as (c & Hc & Hcn & Hce & Hci & Hcnd).
  { destruct (proc_res s w P x0 Hp0) as [Hn|[J HJ]].
    - rewrite (on_should_null s m w R x0 s0) by done. eexists. split; [done|]. cbn. split_and!; [done..| |constructor].
      intros J. unfold null in Hn. rewrite Hn. rewrite elem_none. naive_solver.
    - destruct (on_should_res s m w R P x0 s0 (Coll [] [] [] ∅ ∅) J Hs0 Hp0 HJ) as (b & -> & Hb).
      destruct b; [|by rewrite <- Hb in Hn0]. eexists. split; [done|]. cbn. split_and!; [done..| |by apply NoDup_add_new; constructor].
      intros J'. rewrite elem_add_new, HJ, elem_none. naive_solver. }
  (* the visitors *)
  destruct (ci_replay s m w R P X V K HXall (sn_V _ _ _ _ SN) (sn_K _ _ _ _ SN) N E LA RG (reverse (w_nodes k))
    (λ _, False) (λ _ _, False) (λ _, False) (Coll (c_nodes c) (c_edges c) (c_isles c) ({[s0]} ∪ V) K)) as (c' & Hc' & CI & Hmono).
  { split; cbn; rewrite ?Hcn, ?Hce.
    - intros z. rewrite elem_none. naive_solver.
    - intros z. rewrite elem_none. naive_solver.
    - intros z e Hz. tauto.
    - intros J HJ%Hci. exists x0, x0. auto.
    - done.
    - intros y j Hy. rewrite elem_of_union, elem_of_singleton. intros [->|Hj].
      + rewrite (rel_node_inj _ _ _ R y x0 s0) by done. split; [done|]. right. intros J. by apply Hci.
      + split; [|by left]. by apply (sn_V _ _ _ _ SN y j).
    - split_and!; [constructor..|done]. }
  { by rewrite reverse_Permutation. }
  { intros i Hi. rewrite elem_of_reverse in Hi. destruct (HXi i Hi) as (x & Hx & HXx). exists x. auto. }
  assert (CI' : ci s w X V K X (λ p q, X p ∧ linked s p q) (λ z, ∃ x, X x ∧ ends s z x) c').
  { eapply ci_ext; [| | |exact CI].
    - intros z. setoid_rewrite elem_of_reverse. unfold X. naive_solver.
    - intros p q. setoid_rewrite elem_of_reverse. unfold X. naive_solver.
    - intros z. setoid_rewrite elem_of_reverse. unfold X. naive_solver. }
  clear CI. destruct CI' as [C1 C2 C3 C4 C5 C6 (C7 & C8 & C9)].
  assert (Hin0 : ∀ J, w_res w !! x0 = Some (Some J) → J ∈ c_isles c').
  { intros J HJ. apply Hmono. cbn. by apply Hci. }
  assert (Hin : ∀ x J, X x → w_res w !! x = Some (Some J) → J ∈ c_isles c').
  { intros x J HXx HJ. destruct (HXall x HXx) as [Hxp _]. pose proof HXx as (i & Hx & Hi). apply Hreach in Hi.
    destruct Hi as [|j i Hj Hcj Ha [Hsh _]].
    - apply Hin0. by rewrite (rel_node_inj _ _ _ R x0 x s0).
    - destruct (proj1 (rel_connecting _ _ _ R j) Hcj) as (y & Hy & Hyp). apply (C5 y x); [|done|done]. split.
      + exists j. split; [done|]. by apply Hreach.
      + by apply (rel_adjacent _ _ _ R y x j i). }
  assert (G : gathered s (w_res w) X (c_nodes c') (c_edges c') (c_isles c')).
  { split.
    - intros x HXx. by apply HXall.
    - exact C1.
    - exact C2.
    - intros x y J HXx [->|Hl] Hyp HJ; [by eapply Hin|]. by eapply (C5 x y).
    - intros x y HXx Hl Hyp Hyn. apply (Hclosed x); [done..|]. by left. }
  destruct (component_ok s w c' P (iv_store _ _ _ IV) (iv_slp _ _ _ IV) (inv_sep _ _ _ IV) C7 C8 C9) as (w' & h & Hw' & A).
  { intros x Hx. apply C1 in Hx as [[HXx Hn]|[Ha _]].
    - split; [|done]. by apply procedural_node, HXall.
    - split; [by eexists|]. intros Hp. by destruct (kind_excl s x). }
  { intros z Hz. apply C2 in Hz as (Hn & x & _ & Hx). split; [by eapply ends_edge|done]. }
  { intros J HJ. destruct (C4 J HJ) as (x & y & _ & _ & Hyp & Hr). exists y. left. by apply (pt_node _ _ _ _ P). }
  exists c, k, c', w', h, X. split_and!; try done.
  - destruct (w_nc k) as [|i l] eqn:Hl; [done|]. destruct (proj1 (Hnc i)) as [Hi Hin']; [rewrite ?Hl; apply elem_of_list_here|].
    destruct (HXi i Hi) as (x & Hx & HXx). exfalso. eapply connecting_not_nc; [|exact Hin'].
    apply (rel_connecting' _ _ _ R x i Hx). by apply HXall.
  - intros x i Hx. rewrite Hvis, elem_of_union, elem_of_list_to_set. split.
    + intros [?|Hi]; [by left|]. right. by exists i.
    + intros [?|(j & Hj & ?)]; [by left|]. right. congruence.
  - intros z e Hz. rewrite Hved, elem_of_union, elem_of_list_to_set, Hedg. split.
    + intros [?|(_ & _ & i & Hi & _ & Hinc)]; [by left|]. right. destruct (HXi i Hi) as (x & Hx & HXx).
      exists x. split; [done|]. by apply (rel_incident _ _ _ R z e x i).
    + intros [?|(x & HXx & Hzx)]; [by left|]. destruct (decide (e ∈ K)) as [?|HeK]; [by left|]. right.
      split_and!; [done|done|]. pose proof HXx as (i & Hx & Hi). exists i. split_and!; [done| |].
      * apply (rel_connecting' _ _ _ R x i Hx). by apply HXall.
      * by apply (rel_incident _ _ _ R z e x i).
  - intros x Hx. by apply HXall.
Qed.
End step.

Lemma reach_isl_ok s m starts : ∀ V K w,
  inv s m w → seen s w V K →
  (∀ x, procedural s x → needs s w x → ∃ i, w_node w !! x = Some i ∧ i ∈ starts) →
  (∀ i, i ∈ starts → ∃ x, w_node w !! x = Some i ∧ procedural s x ∧ (i ∈ V ∨ needs s w x)) →
  ∃ w', reach_isl starts V K (Coll [] [] [] ∅ ∅) w = Ok w' ∧ inv s m w' ∧ complete s w' ∧ keeps w w' ∧ same w w' ∧
    (∀ x, procedural s x → needs s w x → x ∉ w_asleep w') ∧
    (w_split w = [] ∨ no_null_edge s w → (∀ J, J ∉ w_split w → tight s w J) → ∀ J, J ∉ w_split w' → tight s w' J).
Proof.
  induction starts as [|s0 starts IH]; intros V K w IV SN Hneed Hst; cbn [reach_isl].
  { exists w. split_and!; [done|done| |apply keeps_refl|apply same_refl| |done].
    - intros x Hp Hn. destruct (Hneed x Hp Hn) as (i & _ & Hi). by apply elem_of_nil in Hi.
    - intros x Hp Hn. destruct (Hneed x Hp Hn) as (i & _ & Hi). by apply elem_of_nil in Hi. }
  pose proof (iv_rel _ _ _ IV) as R.
  destruct (Hst s0) as (x0 & Hx0 & Hp0 & HVn); [apply elem_of_list_here|].
  assert (Hm0 : mg_nodes m !! s0 = Some (x0, false)) by (by apply (rel_procedural _ _ _ R x0 s0 Hx0)).
  destruct (hist_inv _ _ _ (rl_hist _ _ _ R)) as [(N & E & LA & RG) _].
  destruct (grep_node_plain _ _ _ _ _ _ _ _ RG Hm0) as (hh & nx & He & _).
  rewrite (fl_get_elem _ _ _ He). cbn [mbind res_bind fst n_nc negb assert_].
  case_decide as HV.
  { apply IH; try done.
    - intros x Hp Hn. destruct (Hneed x Hp Hn) as (i & Hx & Hi). exists i. split; [done|].
      apply elem_of_cons in Hi as [->|?]; [|done]. exfalso.
      destruct (sn_V _ _ _ _ SN x s0 Hx HV) as [_ Hc]. by apply (Hc x (or_introl eq_refl)).
    - intros i Hi. apply Hst. by apply elem_of_list_further. }
  destruct HVn as [?|Hn0]; [done|].
  destruct (visit_ok s m w V K s0 x0 IV SN Hx0 HV Hp0 Hn0) as
    (c & k & c' & w1 & h & X & -> & Hk & Hc' & Hw1 & A & G & Hto & Hnc & Hvis & Hved & HX0 & HXc & Hcl & HXn).
  cbn [mbind res_bind]. rewrite Hk. cbn [mbind res_bind]. rewrite Hc'. cbn [mbind res_bind]. rewrite Hw1. cbn [mbind res_bind].
  pose proof (absorbed_inv s m w w1 _ _ _ h X IV A G Hto) as IV1.
  pose proof (ab_same _ _ _ _ _ _ _ A) as SM.
  assert (Hvis' : ∀ x i, w_node w1 !! x = Some i → (i ∈ w_visited k ∖ list_to_set (w_nc k) ↔ i ∈ V ∨ X x)).
  { intros x i Hx. rewrite (sm_node _ _ SM) in Hx. rewrite Hnc, elem_of_difference, (Hvis x i Hx).
    split; [tauto|]. intros ?. split; [done|]. rewrite elem_of_list_to_set. apply not_elem_of_nil. }
  destruct (IH (w_visited k ∖ list_to_set (w_nc k)) (w_vedges k) w1 IV1) as (w2 & Hw2 & IV2 & Hco & Hke & Hsm & Haw & Hti).
  { split.
    - intros y j Hy Hj. apply (Hvis' y j Hy) in Hj. rewrite (sm_node _ _ SM) in Hy. destruct Hj as [Hj|HXy].
      + destruct (sn_V _ _ _ _ SN y j Hy Hj) as [Hyp Hc]. split; [done|]. intros x Hx Hxp Hxn.
        apply (Hc x Hx Hxp). exact (absorbed_needs s m w w1 _ _ _ h X IV A G Hto x Hxn).
      + split; [by apply (ga_X _ _ _ _ _ _ G)|]. intros x [->|Hl] Hxp Hxn.
        * exact (absorbed_done s m w w1 _ _ _ h X IV A G Hto _ HXy Hxn).
        * refine (absorbed_done s m w w1 _ _ _ h X IV A G Hto x _ Hxn).
          apply (Hcl y x); [done..|]. exact (absorbed_needs s m w w1 _ _ _ h X IV A G Hto x Hxn).
    - intros z e Hz He'. rewrite (sm_edge _ _ SM) in Hz. apply (Hved z e Hz) in He' as [He'|(x & HXx & Hzx)].
      + intros Hn. apply (sn_K _ _ _ _ SN z e Hz He'). exact (absorbed_null s m w w1 _ _ _ h X IV A G Hto z Hn).
      + exact (absorbed_edge_done s m w w1 _ _ _ h X IV A G Hto z x HXx Hzx). }
  { intros x Hp Hn. destruct (Hneed x Hp) as (i & Hx & Hi); [exact (absorbed_needs s m w w1 _ _ _ h X IV A G Hto x Hn)|].
    exists i. rewrite (sm_node _ _ SM). split; [done|]. apply elem_of_cons in Hi as [->|?]; [|done]. exfalso.
    rewrite (rel_node_inj _ _ _ R x x0 s0) in Hn by done. exact (absorbed_done s m w w1 _ _ _ h X IV A G Hto x0 HX0 Hn). }
  { intros i Hi. destruct (Hst i) as (x & Hx & Hp & Hor); [by apply elem_of_list_further|].
    exists x. assert (Hx1 : w_node w1 !! x = Some i) by (by rewrite (sm_node _ _ SM)). split_and!; [done..|].
    rewrite (Hvis' x i Hx1). destruct Hor as [?|Hn]; [tauto|].
    destruct (decide (i ∈ w_visited k)) as [Hiv|Hiv]; [left; by apply (Hvis x i Hx)|].
    right. assert (¬ X x) by (intros ?; apply Hiv, (Hvis x i Hx); by right).
    eapply (absorbed_still s m w w1 _ _ _ h X IV A G Hto); [done|done| |done]. intros y HXy Hl.
    assert (X x) by (by eapply (Hcl y)). done. }
  exists w2. split_and!; [done|done|done| | | |].
  - eapply keeps_trans; [|exact Hke]. exact (absorbed_keeps s m w w1 _ _ _ h X IV A G Hto).
  - by eapply same_trans.
  - intros x Hp Hn. destruct (rl_live _ _ _ R x (procedural_node _ _ Hp)) as [i Hx].
    destruct (decide (i ∈ w_visited k)) as [[HiV|HXx]%(Hvis x i Hx)|Hiv].
    + destruct (sn_V _ _ _ _ SN x i Hx HiV) as [_ Hc]. by destruct (Hc x (or_introl eq_refl) Hp).
    + intros Hs%(kp_asleep _ _ Hke). exact (absorbed_awake s m w w1 _ _ _ h X IV A G Hto x HXx Hs).
    + apply Haw; [done|]. assert (¬ X x) by (intros ?; apply Hiv, (Hvis x i Hx); by right).
      eapply (absorbed_still s m w w1 _ _ _ h X IV A G Hto); [done|done| |done]. intros y HXy Hl.
      assert (X x) by (by eapply (Hcl y)). done.
  - intros Hor Ht. apply Hti.
    + destruct Hor as [Hs|Hnn]; [left; by rewrite (sm_split _ _ SM)|right]. intros z x Hzx Hp Hn. apply (Hnn z x Hzx Hp).
      exact (absorbed_null s m w w1 _ _ _ h X IV A G Hto z Hn).
    + eapply (absorbed_tight s m w w1 _ _ _ h X IV A G Hto); [|eauto| |done].
      * intros x y HXx HXy. apply pconn_trans with x0; [apply pconn_sym|]; auto.
      * intros J HJ. apply Ht. destruct Hor as [->|Hnn]; [apply not_elem_of_nil|]. exfalso.
        pose proof (iv_part _ _ _ IV) as P.
        destruct (Hto J HJ) as (x & y & HXx & Hxy & Hyp & Hr).
        assert (Hxp : procedural s x) by (by apply (ga_X _ _ _ _ _ _ G)).
        assert (Hxn : w_res w !! x = Some None).
        { destruct (HXn x HXx) as [?|(z & Hz & Hn)]; [done|]. by destruct (Hnn z x). }
        destruct Hxy as [->|Hl]; [congruence|]. apply linked_edge in Hl as (z & Hzx & Hzy).
        assert (is_Some (w_res w !! z)) as [[J'|] HJ'] by (apply (pt_res _ _ _ _ P); right; by eapply ends_edge).
        -- apply (pt_ends _ _ _ _ P z J' x Hzx) in HJ'. apply (pt_node _ _ _ _ P) in HJ'; [congruence|done].
        -- by destruct (Hnn z x).
Qed.

(** ** init_new_nodes_and_edges *)
Lemma concat_res_ok {A} (f : A → res (list nat)) l :
  (∀ x, x ∈ l → ∃ r, f x = Ok r) →
  ∃ r, concat_res (map f l) = Ok r ∧ ∀ j, j ∈ r ↔ ∃ x q, x ∈ l ∧ f x = Ok q ∧ j ∈ q.
Proof.
  unfold concat_res. induction l as [|x l IH]; intros Hf; cbn [map foldr].
  { exists []. split; [done|]. intros j. rewrite elem_none. split; [done|]. intros (x & q & Hx & _). by apply elem_of_nil in Hx. }
  destruct (Hf x) as [q Hq]; [apply elem_of_list_here|]. rewrite Hq. cbn [mbind res_bind].
  destruct IH as (r & Hr & Hj); [intros y Hy; by apply Hf, elem_of_list_further|].
  cbn [mbind res_bind] in Hr. rewrite Hr. exists (q ++ r). split; [done|].
  intros j. rewrite elem_of_app, Hj. setoid_rewrite elem_of_cons. split.
  - intros [?|(y & q' & ? & ? & ?)]; [exists x, q|exists y, q']; auto.
  - intros (y & q' & [->|?] & Hy & ?); [left; congruence|]. right. eauto.
Qed.

Lemma node_index_ok s m w x : rel s m w → is_Some (sg_nodes s !! x) →
  ∃ q, node_index w (Some x) = Ok q ∧ ∀ i, i ∈ q ↔ procedural s x ∧ w_node w !! x = Some i.
Proof.
  intros R Hx. unfold node_index. cbn [opt_res mbind res_bind]. case_decide as Hp.
  - apply (rl_proc _ _ _ R) in Hp. destruct (rl_live _ _ _ R x Hx) as [i Hi]. rewrite Hi. cbn.
    exists [i]. split; [done|]. intros j. rewrite elem_one. naive_solver.
  - rewrite (rl_proc _ _ _ R) in Hp. exists []. split; [done|]. intros j. rewrite elem_none. tauto.
Qed.
Lemma edge_starts_ok s m w k : rel s m w → is_edge s k →
  ∃ q, edge_starts w k = Ok q ∧ ∀ i, i ∈ q ↔ ∃ x, ends s k x ∧ procedural s x ∧ w_node w !! x = Some i.
Proof.
  intros R Hk. unfold edge_starts. destruct (rl_elive _ _ _ R k Hk) as [e He]. rewrite He. cbn [opt_res mbind res_bind].
  destruct (rel_edge_ends _ _ _ R k e He) as (a & b & Hab & ->). cbn [mbind res_bind fst snd].
  destruct (node_index_ok s m w a R) as (qa & -> & Ha).
  { apply (rel_wf _ _ _ R k). exists b. by left. }
  cbn [mbind res_bind].
  destruct (node_index_ok s m w b R) as (qb & -> & Hb).
  { apply (rel_wf _ _ _ R k). exists a. by right. }
  cbn [mbind res_bind]. eexists. split; [done|]. intros i. rewrite elem_of_app, Ha, Hb. split.
  - intros [?|?]; [exists a|exists b]; (split; [|done]); eexists; rewrite Hab; eauto.
  - intros (x & [y [Hy|Hy]] & ?); rewrite Hab in Hy; simplify_eq; auto.
Qed.

Lemma inv_set_new s m w a b : inv s m w → inv s m (set_new w a b).
Proof. intros [P [] [] R HS]. split; [done|by split|by split|by eapply rel_same|done]. Qed.

Lemma init_new_ok s m w :
  inv s m w → queue s w →
  ∃ w', init_new w = Ok w' ∧ inv s m w' ∧ complete s w' ∧ keeps w w' ∧ same (set_new w [] []) w' ∧
    (∀ x, procedural s x → needs s w x → x ∉ w_asleep w') ∧
    (w_split w = [] ∨ no_null_edge s w → (∀ J, J ∉ w_split w → tight s w J) → ∀ J, J ∉ w_split w' → tight s w' J).
Proof.
  intros IV Q. pose proof (iv_rel _ _ _ IV) as R. pose proof (iv_store _ _ _ IV) as ST. unfold init_new.
  assert (Hnn : ∀ x, x ∈ filter (λ x, x ∈ w_valid w) (w_newn w) ↔ x ∈ w_newn w ∧ is_Some (sg_nodes s !! x)).
  { intros x. rewrite elem_of_list_filter, (st_valid _ _ ST). split; [|tauto]. intros [Hv Hx].
    destruct (q_n _ _ Q x Hx) as (_ & H1 & H2 & _). tauto. }
  assert (Hne : ∀ x, x ∈ filter (λ x, x ∈ w_valid w) (w_newe w) ↔ x ∈ w_newe w ∧ is_edge s x).
  { intros x. rewrite elem_of_list_filter, (st_valid _ _ ST). split; [|tauto]. intros [Hv Hx].
    destruct (q_e _ _ Q x Hx) as (_ & H1 & H2 & _). tauto. }
  destruct (concat_res_ok (λ x, node_index w (Some x)) (filter (λ x, x ∈ w_valid w) (w_newn w))) as (l0 & -> & Hl0).
  { intros x Hx. apply Hnn in Hx as [_ Hx]. destruct (node_index_ok s m w x R Hx) as (q & Hq & _). eauto. }
  cbn [mbind res_bind].
  destruct (concat_res_ok (edge_starts w) (filter (λ x, x ∈ w_valid w) (w_newe w))) as (l1 & -> & Hl1).
  { intros x Hx. apply Hne in Hx as [_ Hx]. destruct (edge_starts_ok s m w x R Hx) as (q & Hq & _). eauto. }
  cbn [mbind res_bind].
  assert (Hst : ∀ i, i ∈ merge_sort (≤) (elements (lst (l0 ++ l1))) ↔ i ∈ l0 ∨ i ∈ l1).
  { intros i. rewrite merge_sort_Permutation, elem_of_elements, elem_lst, elem_of_app. done. }
  destruct (reach_isl_ok s m (merge_sort (≤) (elements (lst (l0 ++ l1)))) ∅ ∅ (set_new w [] [])) as (w' & Hw' & IV' & Hco & Hke & Hsm & Haw & Hti).
  - by apply inv_set_new.
  - split; intros; set_solver.
  - intros x Hp Hn. destruct (rl_live _ _ _ R x (procedural_node _ _ Hp)) as [i Hi]. exists i. split; [done|].
    apply Hst. destruct Hn as [Hn|(k & Hk & Hn)].
    + left. apply Hl0. destruct (node_index_ok s m w x R (procedural_node _ _ Hp)) as (q & Hq & Hqi). exists x, q.
      split_and!; [|done|by apply Hqi]. apply Hnn. split; [by apply (q_null _ _ Q)|by apply procedural_node].
    + right. apply Hl1. assert (Hke : is_edge s k) by (by eapply ends_edge).
      destruct (edge_starts_ok s m w k R Hke) as (q & Hq & Hqi). exists k, q. split_and!; [|done|].
      * apply Hne. split; [by eapply (q_enull _ _ Q)|done].
      * apply Hqi. eauto.
  - intros i [Hi|Hi]%Hst.
    + apply Hl0 in Hi as (x & q & Hx & Hq & Hi). apply Hnn in Hx as [Hx Hxl].
      destruct (node_index_ok s m w x R Hxl) as (q' & Hq' & Hqi). rewrite Hq in Hq'. injection Hq' as <-.
      apply Hqi in Hi as [Hp Hi]. exists x. split_and!; [done..|]. right. left. by apply (q_n _ _ Q x Hx).
    + apply Hl1 in Hi as (k & q & Hk & Hq & Hi). apply Hne in Hk as [Hk Hkl].
      destruct (edge_starts_ok s m w k R Hkl) as (q' & Hq' & Hqi). rewrite Hq in Hq'. injection Hq' as <-.
      apply Hqi in Hi as (x & Hkx & Hp & Hi). exists x. split_and!; [done..|]. right. right. exists k. split; [done|].
      by apply (q_e _ _ Q k Hk).
  - exists w'. split_and!; try done. eapply keeps_trans; [|exact Hke]. split; try done. intros h il Hil. right. eauto.
Qed.
