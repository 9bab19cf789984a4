(** Making and destroying bodies and edges keeps the invariant. *)
From Coq Require Import ZArith.
From Verif Require Import Outcome FreeListModel FreeListProofs GraphModel GraphSpec GraphProofs GraphHist GraphWalk GraphMain
  IslModel IslSpec IslBase IslInv IslData IslRel IslReach IslInit IslSplit IslOne IslUpd.

(** The invariant without the graph *)
Record core (s : sgraph) (w : world) : Prop := {
  co_part : part s (w_res w) (member w) (emember w);
  co_store : store s w;
  co_slp : slp w;
  co_split : NoDup (w_split w);
  co_queue : queue s w;
  co_wf : wf s
}.
Lemma core_inv s m w : core s w → rel s m w → inv s m w.
Proof. intros [] ?. by split. Qed.
Lemma inv_core s m w : inv s m w → queue s w → core s w.
Proof. intros [] ?. split; try done. by eapply rel_wf. Qed.
Lemma core_sep s w : core s w → sep s.
Proof. intros C x Hx He. by destruct (st_node _ _ (co_store _ _ C) x Hx) as (_ & ? & _). Qed.
Lemma core_in_island_mem s w x h : core s w → in_island w x h → (procedural s x ∧ member w h x) ∨ (is_edge s x ∧ emember w h x).
Proof.
  intros C Hx. pose proof (co_part _ _ C) as P. assert (is_Some (w_res w !! x)) as [Hp|Hk]%(pt_res _ _ _ _ P) by (by eexists).
  - left. split; [done|]. by apply (pt_node _ _ _ _ P).
  - right. split; [done|]. by apply (pt_edge _ _ _ _ P).
Qed.
Lemma core_in_island s w x h : core s w → in_island w x h → is_island w h.
Proof. intros C Hx. destruct (core_in_island_mem s w x h C Hx) as [[_ (il & H & _)]|[_ (il & H & _)]]; by eexists. Qed.
Lemma core_not_island s w x r : core s w → w_res w !! x = Some r → ¬ is_island w x ∧ x < w_next w.
Proof.
  intros C Hx. assert (is_Some (w_res w !! x)) as [Hp|Hk]%(pt_res _ _ _ _ (co_part _ _ C)) by (by eexists).
  - apply procedural_node, (st_node _ _ (co_store _ _ C)) in Hp. tauto.
  - apply (st_edge _ _ (co_store _ _ C)) in Hk. tauto.
Qed.

(** Connected by edges which have an island *)
Inductive oconn (s : sgraph) (w : world) (x : nat) : nat → Prop :=
| oc_refl : procedural s x → oconn s w x x
| oc_step y z k : oconn s w x y → sg_edges s !! k = Some (y, z) ∨ sg_edges s !! k = Some (z, y) → ¬ null w k → procedural s z → oconn s w x z.
Definition settled (s : sgraph) (w : world) (J : nat) : Prop :=
  ∀ x y, member w J x → member w J y → procedural s x → procedural s y → oconn s w x y.
Lemma oconn_pconn s w x y : oconn s w x y → pconn s x y.
Proof. induction 1 as [|y z k H IH Hk Hn Hp]; [by constructor|]. eapply pc_step; [done| |done]. by exists k. Qed.
Lemma settled_tight s w J : settled s w J → tight s w J.
Proof. intros H x y Hx Hy Hpx Hpy. by apply (oconn_pconn s w), H. Qed.
Lemma tight_settled s w J : complete s w → tight s w J → settled s w J.
Proof.
  intros C H x y Hx Hy Hpx Hpy. specialize (H x y Hx Hy Hpx Hpy). clear Hx Hy Hpx Hpy.
  induction H as [|y z H IH [k Hk] Hp]; [by constructor|]. eapply oc_step; [done..| |done]. intros Hn. apply (C z Hp). right. exists k.
  split; [|done]. exists y. tauto.
Qed.

(** ** Destroying *)
Record removed (w : world) (D : list nat) (w' : world) : Prop := {
  rm_res : ∀ y, w_res w' !! y = if decide (y ∈ D) then None else w_res w !! y;
  rm_multi : ∀ y, w_multi w' !! y = if decide (y ∈ D) then None else w_multi w !! y;
  rm_node : ∀ y, w_node w' !! y = if decide (y ∈ D) then None else w_node w !! y;
  rm_edge : ∀ y, w_edge w' !! y = if decide (y ∈ D) then None else w_edge w !! y;
  rm_proc : ∀ y, y ∈ w_proc w' ↔ y ∈ w_proc w ∧ y ∉ D;
  rm_valid : ∀ y, y ∈ w_valid w' ↔ y ∈ w_valid w ∧ y ∉ D;
  rm_asleep : ∀ y, y ∈ w_asleep w' ↔ y ∈ w_asleep w ∧ y ∉ D;
  rm_nosleep : ∀ y, y ∈ w_nosleep w' ↔ y ∈ w_nosleep w ∧ y ∉ D;
  rm_fast : ∀ y, y ∈ w_fast w' ↔ y ∈ w_fast w ∧ y ∉ D;
  rm_same : w_newn w' = w_newn w ∧ w_newe w' = w_newe w ∧ w_last w' = w_last w ∧ w_next w' = w_next w;
  rm_noisl : ∀ J, w_isl w !! J = None → w_isl w' !! J = None;
  rm_isl : ∀ J il, w_isl w !! J = Some il → ∃ il', w_isl w' !! J = Some il' ∧ il_sleep il' = il_sleep il ∧
    NoDup (il_nodes il') ∧ NoDup (il_edges il') ∧
    (∀ y, y ∈ il_nodes il' ↔ y ∈ il_nodes il ∧ y ∉ D) ∧ (∀ y, y ∈ il_edges il' ↔ y ∈ il_edges il ∧ y ∉ D);
  rm_split : NoDup (w_split w') ∧ (∀ J, J ∈ w_split w → J ∈ w_split w') ∧ (∀ J, J ∈ w_split w' → J ∈ w_split w ∨ is_island w J) ∧
    (∀ x J, x ∈ D → in_island w x J → J ∈ w_split w');
  rm_wake : (∀ J, J ∈ w_wake w → J ∈ w_wake w') ∧ (∀ J, J ∈ w_wake w' → J ∈ w_wake w ∨ is_island w J) ∧
    (∀ x J, x ∈ D → in_island w x J → J ∈ w_wake w')
}.

Lemma removed_nil s w : core s w → removed w [] w.
Proof.
  intros C. assert (Hn : ∀ {A} (a b : A) y, a = if decide (y ∈ @nil nat) then b else a).
  { intros A a b y. rewrite decide_False; [done|]. apply not_elem_of_nil. }
  split; try done; try (intros y; rewrite elem_none; tauto).
  - intros J il HJ. exists il. destruct (st_nd _ _ (co_store _ _ C) J il HJ). split_and!; try done; intros y; rewrite elem_none; tauto.
  - split_and!; [apply C|done|tauto|]. intros x J Hx. by apply elem_of_nil in Hx.
  - split_and!; [done|tauto|]. intros x J Hx. by apply elem_of_nil in Hx.
Qed.

Section removed.
Context (s : sgraph) (w : world) (C : core s w).

Lemma rm_member D w' J y : removed w D w' → (member w' J y ↔ member w J y ∧ y ∉ D).
Proof.
  intros R. unfold member. split.
  - intros (il' & HJ & Hy). destruct (w_isl w !! J) as [il|] eqn:E; [|by rewrite (rm_noisl _ _ _ R J E) in HJ].
    destruct (rm_isl _ _ _ R J il E) as (il2 & HJ2 & _ & _ & _ & H1 & _). simplify_eq. destruct (proj1 (H1 y) Hy) as [Hy1 ?]. split; [by exists il|done].
  - intros [(il & HJ & Hy) HD]. destruct (rm_isl _ _ _ R J il HJ) as (il2 & HJ2 & _ & _ & _ & H1 & _). exists il2. split; [done|]. by apply H1.
Qed.
Lemma rm_emember D w' J y : removed w D w' → (emember w' J y ↔ emember w J y ∧ y ∉ D).
Proof.
  intros R. unfold emember. split.
  - intros (il' & HJ & Hy). destruct (w_isl w !! J) as [il|] eqn:E; [|by rewrite (rm_noisl _ _ _ R J E) in HJ].
    destruct (rm_isl _ _ _ R J il E) as (il2 & HJ2 & _ & _ & _ & _ & H1). simplify_eq. destruct (proj1 (H1 y) Hy) as [Hy1 ?]. split; [by exists il|done].
  - intros [(il & HJ & Hy) HD]. destruct (rm_isl _ _ _ R J il HJ) as (il2 & HJ2 & _ & _ & _ & _ & H1). exists il2. split; [done|]. by apply H1.
Qed.
Lemma rm_island D w' J : removed w D w' → (is_island w' J ↔ is_island w J).
Proof.
  intros R. unfold is_island. destruct (w_isl w !! J) as [il|] eqn:E.
  - destruct (rm_isl _ _ _ R J il E) as (il2 & -> & _). split; intros _; by eexists.
  - by rewrite (rm_noisl _ _ _ R J E).
Qed.

(** Destroying a resident *)
Lemma destroy_resident_ok D w1 x : removed w D w1 → x ∉ D → is_Some (w_res w !! x) →
  ∃ w2, destroy_resident w1 x = Ok w2 ∧ removed w (x :: D) (forget w2 x) ∧ w_graph w2 = w_graph w1.
Proof using C.
  intros R HD [r Hr]. unfold destroy_resident. rewrite (rm_res _ _ _ R), decide_False, Hr by done. cbn [opt_res mbind res_bind].
  assert (Hmap : ∀ {A} (f g : gmap nat A), (∀ y, g !! y = if decide (y ∈ D) then None else f !! y) →
    ∀ y, delete x g !! y = if decide (y ∈ x :: D) then None else f !! y).
  { intros A f g Hg y. destruct (decide (y = x)) as [->|Hne].
    - rewrite lookup_delete, decide_True; [done|]. apply elem_of_list_here.
    - rewrite lookup_delete_ne, Hg by done. apply decide_ext. rewrite elem_of_cons. tauto. }
  assert (Hset : ∀ (f g : gset nat), (∀ y, y ∈ g ↔ y ∈ f ∧ y ∉ D) → ∀ y, y ∈ g ∖ {[x]} ↔ y ∈ f ∧ y ∉ x :: D).
  { intros f g Hg y. rewrite elem_of_difference, elem_of_singleton, Hg, elem_of_cons. tauto. }
  destruct r as [h|].
  - assert (Hin : in_island w x h) by done.
    destruct (core_in_island s w x h C Hin) as [il Hil].
    destruct (rm_isl _ _ _ R h il Hil) as (il1 & Hil1 & Hs1 & N1 & N2 & M1 & M2). rewrite Hil1. cbn [opt_res mbind res_bind].
    assert (∃ il2, (if decide (x ∈ il_nodes il1) then ns ← ss_erase x (il_nodes il1); Ok (Island ns (il_edges il1) (il_sleep il1))
          else if decide (x ∈ il_edges il1) then es ← ss_erase x (il_edges il1); Ok (Island (il_nodes il1) es (il_sleep il1))
          else Ok il1) = Ok il2 ∧ il_sleep il2 = il_sleep il ∧ NoDup (il_nodes il2) ∧ NoDup (il_edges il2) ∧
          (∀ y, y ∈ il_nodes il2 ↔ y ∈ il_nodes il ∧ y ∉ x :: D) ∧ (∀ y, y ∈ il_edges il2 ↔ y ∈ il_edges il ∧ y ∉ x :: D)) as (il2 & -> & Hs2 & N3 & N4 & M3 & M4).
    { assert (Hmn : x ∈ il_nodes il → ¬ x ∈ il_edges il).
      { intros Hx Hy. apply (core_sep s w C x).
        - apply (pt_nlive _ _ _ _ (co_part _ _ C) h). by exists il.
        - apply (pt_elive _ _ _ _ (co_part _ _ C) h). by exists il. }
      case_decide as Hx1.
      - destruct (ss_pop_spec x _ N1) as [Q1 Q2]. rewrite ss_erase_ok by done. cbn [mbind res_bind]. eexists. split; [done|].
        cbn. split_and!; [done|done|done|..].
        + intros y. rewrite Q2, M1, elem_of_cons. tauto.
        + intros y. rewrite M2, elem_of_cons. apply M1 in Hx1 as [Hx1 _]. destruct (decide (y = x)) as [->|]; tauto.
      - case_decide as Hx2.
        + destruct (ss_pop_spec x _ N2) as [Q1 Q2]. rewrite ss_erase_ok by done. cbn [mbind res_bind]. eexists. split; [done|].
          cbn. split_and!; [done|done|done|..].
          * intros y. rewrite M1, elem_of_cons. rewrite M1 in Hx1. destruct (decide (y = x)) as [->|]; tauto.
          * intros y. rewrite Q2, M2, elem_of_cons. tauto.
        + eexists. split; [done|]. split_and!; [done|done|done|..].
          * intros y. rewrite M1, elem_of_cons. rewrite M1 in Hx1. destruct (decide (y = x)) as [->|]; tauto.
          * intros y. rewrite M2, elem_of_cons. rewrite M2 in Hx2. destruct (decide (y = x)) as [->|]; tauto. }
    cbn [mbind res_bind]. eexists. split; [done|]. split; [|done].
    destruct (rm_split _ _ _ R) as (P1 & P2 & P3 & P4). destruct (rm_wake _ _ _ R) as (W1 & W2 & W3).
    split; cbn.
    + apply Hmap, R.
    + apply Hmap, R.
    + apply Hmap, R.
    + apply Hmap, R.
    + apply Hset, R.
    + apply Hset, R.
    + apply Hset, R.
    + apply Hset, R.
    + apply Hset, R.
    + apply R.
    + intros J HJ. rewrite lookup_insert_ne by congruence. by apply (rm_noisl _ _ _ R).
    + intros J il' HJ. destruct (decide (J = h)) as [->|HJh].
      * rewrite lookup_insert. simplify_eq. exists il2. split_and!; done.
      * rewrite lookup_insert_ne by done. destruct (rm_isl _ _ _ R J il' HJ) as (il3 & ? & ? & ? & ? & Q1 & Q2).
        assert (HxJ : x ∉ il_nodes il' ∧ x ∉ il_edges il').
        { destruct (core_in_island_mem s w x h C Hin) as [[Hp Hm]|[Hk Hm]]; split; intros Hx.
          - assert (member w J x) as Hm' by (by exists il'). apply (pt_node _ _ _ _ (co_part _ _ C)) in Hm, Hm'; [|done..]. congruence.
          - apply (core_sep s w C x); [by apply procedural_node|]. apply (pt_elive _ _ _ _ (co_part _ _ C) J). by exists il'.
          - apply (core_sep s w C x); [|done]. apply (pt_nlive _ _ _ _ (co_part _ _ C) J). by exists il'.
          - assert (emember w J x) as Hm' by (by exists il'). apply (pt_edge _ _ _ _ (co_part _ _ C)) in Hm, Hm'; [|done..]. congruence. }
        exists il3. split_and!; try done.
        -- intros y. rewrite Q1, elem_of_cons. destruct (decide (y = x)) as [->|]; tauto.
        -- intros y. rewrite Q2, elem_of_cons. destruct (decide (y = x)) as [->|]; tauto.
    + split_and!.
      * by apply NoDup_add_new.
      * intros J HJ. apply elem_add_new. right. auto.
      * intros J [->|HJ]%elem_add_new; [right; by eexists|auto].
      * intros y J Hy HyJ. apply elem_add_new. apply elem_of_cons in Hy as [->|Hy]; [|right; by eapply P4].
        left. unfold in_island in HyJ, Hin. congruence.
    + split_and!.
      * intros J HJ. apply elem_add_new. right. auto.
      * intros J [->|HJ]%elem_add_new; [right; by eexists|auto].
      * intros y J Hy HyJ. apply elem_add_new. apply elem_of_cons in Hy as [->|Hy]; [|right; by eapply W3].
        left. unfold in_island in HyJ, Hin. congruence.
  - eexists. split; [done|]. split; [|done].
    destruct (rm_split _ _ _ R) as (P1 & P2 & P3 & P4). destruct (rm_wake _ _ _ R) as (W1 & W2 & W3).
    split; cbn.
    + apply Hmap, R.
    + apply Hmap, R.
    + apply Hmap, R.
    + apply Hmap, R.
    + apply Hset, R.
    + apply Hset, R.
    + apply Hset, R.
    + apply Hset, R.
    + apply Hset, R.
    + apply R.
    + apply R.
    + intros J il' HJ. destruct (rm_isl _ _ _ R J il' HJ) as (il3 & ? & ? & ? & ? & Q1 & Q2).
      assert (HxJ : x ∉ il_nodes il' ∧ x ∉ il_edges il').
      { assert (is_Some (w_res w !! x)) as [Hp|Hk]%(pt_res _ _ _ _ (co_part _ _ C)) by (by eexists); split; intros Hx.
        - assert (member w J x) as Hm' by (by exists il'). apply (pt_node _ _ _ _ (co_part _ _ C)) in Hm'; [|done..]. congruence.
        - apply (core_sep s w C x); [by apply procedural_node|]. apply (pt_elive _ _ _ _ (co_part _ _ C) J). by exists il'.
        - apply (core_sep s w C x); [|done]. apply (pt_nlive _ _ _ _ (co_part _ _ C) J). by exists il'.
        - assert (emember w J x) as Hm' by (by exists il'). apply (pt_edge _ _ _ _ (co_part _ _ C)) in Hm'; [|done..]. congruence. }
      exists il3. split_and!; try done.
      -- intros y. rewrite Q1, elem_of_cons. destruct (decide (y = x)) as [->|]; tauto.
      -- intros y. rewrite Q2, elem_of_cons. destruct (decide (y = x)) as [->|]; tauto.
    + split_and!; [done..|]. intros y J [->|Hy]%elem_of_cons HyJ; [|by eapply P4]. unfold in_island in HyJ. congruence.
    + split_and!; [done..|]. intros y J [->|Hy]%elem_of_cons HyJ; [|by eapply W3]. unfold in_island in HyJ. congruence.
Qed.

(** Destroying an anchored body *)
Lemma destroy_multi_removed D w1 x w2 is : removed w D w1 → x ∉ D → w_res w !! x = None → w_multi w !! x = Some is →
  destroy_multi w1 x = Ok w2 → removed w (x :: D) (forget w2 x) ∧ w_graph w2 = w_graph w1.
Proof using C.
  intros R HD Hr His. unfold destroy_multi. rewrite (rm_multi _ _ _ R), decide_False, His by done. cbn [opt_res mbind res_bind].
  intros Hf.
  assert (Hinv : ∃ I W, w2 = set_wake (set_isl w1 I) W ∧
    (∀ J, w_isl w1 !! J = None → I !! J = None) ∧
    (∀ J il, w_isl w1 !! J = Some il → ∃ il', I !! J = Some il' ∧ il_sleep il' = il_sleep il ∧ il_edges il' = il_edges il ∧
      NoDup (il_nodes il') ∧ ∀ y, y ∈ il_nodes il' ↔ y ∈ il_nodes il ∧ ¬ (y = x ∧ J ∈ reverse is)) ∧
    (∀ J, J ∈ w_wake w1 → J ∈ W) ∧ (∀ J, J ∈ W → J ∈ w_wake w1 ∨ is_island w1 J)).
  { eapply (fold_res_inv _ (λ l w2, ∃ I W, w2 = set_wake (set_isl w1 I) W ∧
    (∀ J, w_isl w1 !! J = None → I !! J = None) ∧
    (∀ J il, w_isl w1 !! J = Some il → ∃ il', I !! J = Some il' ∧ il_sleep il' = il_sleep il ∧ il_edges il' = il_edges il ∧
      NoDup (il_nodes il') ∧ ∀ y, y ∈ il_nodes il' ↔ y ∈ il_nodes il ∧ ¬ (y = x ∧ J ∈ l)) ∧
    (∀ J, J ∈ w_wake w1 → J ∈ W) ∧ (∀ J, J ∈ W → J ∈ w_wake w1 ∨ is_island w1 J))); [exact Hf|..].
    - exists (w_isl w1), (w_wake w1). split_and!; [by destruct w1|done| |done|tauto].
      intros J il HJ. exists il. destruct (w_isl w !! J) as [il0|] eqn:E; [|by rewrite (rm_noisl _ _ _ R J E) in HJ].
      destruct (rm_isl _ _ _ R J il0 E) as (il' & HJ' & _ & N & _). simplify_eq. split_and!; try done. intros y. rewrite elem_none. tauto.
    - intros l1 J l2 wa wb Hl (I & W & -> & H1 & H2 & H3 & H4). cbn [w_isl set_isl set_wake].
      destruct (I !! J) as [il|] eqn:E; [|done]. cbn [opt_res mbind res_bind].
      assert (∃ il1, w_isl w1 !! J = Some il1) as [il1 Hil1].
      { destruct (w_isl w1 !! J) as [il1|] eqn:E1; [by eexists|]. by rewrite (H1 J E1) in E. }
      destruct (H2 J il1 Hil1) as (il' & E' & Q1 & Q2 & Q3 & Q4). rewrite E in E'. injection E' as <-.
      unfold ss_erase, require_. case_bool_decide as Hx; [|done]. cbn [mbind res_bind]. intros [= <-].
      destruct (ss_pop_spec x (il_nodes il) Q3) as [S1 S2].
      exists (<[J := Island (ss_pop x (il_nodes il)) (il_edges il) (il_sleep il)]> I), (add_new J W). split_and!; [reflexivity|..].
      + intros K HK. rewrite lookup_insert_ne by congruence. auto.
      + intros K ilk HK. destruct (decide (K = J)) as [->|Hne].
        * rewrite lookup_insert. simplify_eq. eexists. split; [done|]. cbn. split_and!; [done..|].
          intros y. rewrite S2, Q4, elem_snoc. tauto.
        * rewrite lookup_insert_ne by done. destruct (H2 K ilk HK) as (il2 & ? & ? & ? & ? & Q). exists il2. split_and!; try done.
          intros y. rewrite Q, elem_snoc. tauto.
      + intros K HK. apply elem_add_new. right. auto.
      + intros K [->|HK]%elem_add_new; [right; by eexists|auto]. }
  destruct Hinv as (I & W & -> & H1 & H2 & H3 & H4). split; [|done].
  assert (Hmap : ∀ {A} (f g : gmap nat A), (∀ y, g !! y = if decide (y ∈ D) then None else f !! y) →
    ∀ y, delete x g !! y = if decide (y ∈ x :: D) then None else f !! y).
  { intros A f g Hg y. destruct (decide (y = x)) as [->|Hne].
    - rewrite lookup_delete, decide_True; [done|]. apply elem_of_list_here.
    - rewrite lookup_delete_ne, Hg by done. apply decide_ext. rewrite elem_of_cons. tauto. }
  assert (Hset : ∀ (f g : gset nat), (∀ y, y ∈ g ↔ y ∈ f ∧ y ∉ D) → ∀ y, y ∈ g ∖ {[x]} ↔ y ∈ f ∧ y ∉ x :: D).
  { intros f g Hg y. rewrite elem_of_difference, elem_of_singleton, Hg, elem_of_cons. tauto. }
  destruct (rm_split _ _ _ R) as (P1 & P2 & P3 & P4). destruct (rm_wake _ _ _ R) as (W1 & W2 & W3).
  split; cbn.
  - apply Hmap, R.
  - apply Hmap, R.
  - apply Hmap, R.
  - apply Hmap, R.
  - apply Hset, R.
  - apply Hset, R.
  - apply Hset, R.
  - apply Hset, R.
  - apply Hset, R.
  - apply R.
  - intros J HJ. apply H1. by apply (rm_noisl _ _ _ R).
  - intros J il HJ. destruct (rm_isl _ _ _ R J il HJ) as (il1 & E1 & Q1 & Q2 & Q3 & Q4 & Q5).
    destruct (H2 J il1 E1) as (il2 & E2 & Z1 & Z2 & Z3 & Z4). exists il2. split_and!; [done|congruence|done|congruence|..].
    + intros y. rewrite Z4, Q4, elem_of_cons, elem_of_reverse. split; [|tauto]. intros [[Hy HyD] Hn]. split; [done|].
      intros [->|?]; [|done]. apply Hn. split; [done|]. apply (st_mem _ _ (co_store _ _ C) J x); [|done]. by exists il.
    + intros y. rewrite Z2, Q5, elem_of_cons. split; [|tauto]. intros [Hy HyD]. split; [done|]. intros [->|?]; [|done].
      assert (is_Some (w_res w !! x)) as [? ?]; [|congruence]. apply (pt_res _ _ _ _ (co_part _ _ C)). right.
      apply (pt_elive _ _ _ _ (co_part _ _ C) J). by exists il.
  - split_and!; [done..|]. intros y J [->|Hy]%elem_of_cons HyJ; [unfold in_island in HyJ; congruence|by eapply P4].
  - split_and!.
    + intros J HJ. auto.
    + intros J [HJ|HJ]%H4; [auto|]. right. by apply (rm_island D w1).
    + intros y J [->|Hy]%elem_of_cons HyJ; [unfold in_island in HyJ; congruence|]. apply H3. by eapply W3.
Qed.

(** What is left *)
Context (D : list nat) (s' : sgraph) (w' : world) (R : removed w D w').
Context (Hn : ∀ y, sg_nodes s' !! y = if decide (y ∈ D) then None else sg_nodes s !! y).
Context (He : ∀ y, sg_edges s' !! y = if decide (y ∈ D) then None else sg_edges s !! y).
Context (Hcl : ∀ k y, ends s k y → y ∈ D → k ∈ D).
Context (HD : ∀ x, x ∈ D → is_Some (sg_nodes s !! x) ∨ is_edge s x).

Lemma left_procedural y : procedural s' y ↔ procedural s y ∧ y ∉ D.
Proof using Hn. unfold procedural. rewrite Hn. case_decide; split; try tauto. done. Qed.
Lemma left_anchored y : anchored s' y ↔ anchored s y ∧ y ∉ D.
Proof using Hn. unfold anchored. rewrite Hn. case_decide; split; try tauto. done. Qed.
Lemma left_node y : is_Some (sg_nodes s' !! y) ↔ is_Some (sg_nodes s !! y) ∧ y ∉ D.
Proof using Hn. rewrite Hn. case_decide; split; try tauto. by intros [? ?]. Qed.
Lemma left_edge y : is_edge s' y ↔ is_edge s y ∧ y ∉ D.
Proof using He. unfold is_edge. rewrite He. case_decide; split; try tauto. by intros [? ?]. Qed.
Lemma left_ends k y : ends s' k y ↔ ends s k y ∧ k ∉ D.
Proof using He.
  unfold ends. split.
  - intros [z Hz]. rewrite He in Hz. case_decide; [by destruct Hz|]. split; [by exists z|done].
  - intros [[z Hz] Hk]. exists z. by rewrite He, decide_False.
Qed.
Lemma D_not_island x : x ∈ D → ¬ is_island w x.
Proof using C HD.
  intros [Hx|Hx]%HD.
  - apply (st_node _ _ (co_store _ _ C)) in Hx. tauto.
  - apply (st_edge _ _ (co_store _ _ C)) in Hx. tauto.
Qed.
Lemma left_in_island y J : in_island w' y J ↔ in_island w y J ∧ y ∉ D.
Proof using R. unfold in_island. rewrite (rm_res _ _ _ R). case_decide; split; try tauto. done. Qed.

Lemma left_core : core s' w'.
Proof using All.
  pose proof (co_part _ _ C) as P. pose proof (co_store _ _ C) as ST. destruct (rm_same _ _ _ R) as (E1 & E2 & E3 & E4).
  destruct (rm_split _ _ _ R) as (P1 & P2 & P3 & P4). destruct (rm_wake _ _ _ R) as (W1 & W2 & W3).
  split.
  - split.
    + intros x. rewrite (rm_res _ _ _ R), left_procedural, left_edge, <- (and_comm (x ∉ D)). rewrite <- (and_comm (x ∉ D)).
      pose proof (pt_res _ _ _ _ P x). case_decide; [|tauto]. split; [by intros [? ?]|tauto].
    + intros x h [Hp Hx]%left_procedural. rewrite (rm_member D w' h x R), (rm_res _ _ _ R), decide_False by done.
      rewrite (pt_node _ _ _ _ P) by done. tauto.
    + intros x h [Hp Hx]%left_edge. rewrite (rm_emember D w' h x R), (rm_res _ _ _ R), decide_False by done.
      rewrite (pt_edge _ _ _ _ P) by done. tauto.
    + intros h x [Hx ?]%(rm_member D w' h x R). apply left_node. split; [|done]. by eapply (pt_nlive _ _ _ _ P).
    + intros h x [Hx ?]%(rm_emember D w' h x R). apply left_edge. split; [|done]. by eapply (pt_elive _ _ _ _ P).
    + intros k h x [Hk HkD]%left_ends Hr. apply (rm_member D w' h x R). rewrite (rm_res _ _ _ R), decide_False in Hr by done.
      split; [by eapply (pt_ends _ _ _ _ P)|]. intros Hx. apply HkD. by eapply Hcl.
    + intros k h [Hk HkD]%left_edge Hr. rewrite (rm_res _ _ _ R), decide_False in Hr by done.
      destruct (pt_has _ _ _ _ P k h Hk Hr) as (x & Hx & Hp). exists x. rewrite left_ends, left_procedural. split_and!; try done.
      intros HxD. apply HkD. by eapply Hcl.
  - split.
    + intros h il' Hil'. destruct (w_isl w !! h) as [il|] eqn:E; [|by rewrite (rm_noisl _ _ _ R h E) in Hil'].
      destruct (rm_isl _ _ _ R h il E) as (il2 & Hil2 & _ & N1 & N2 & _). by simplify_eq.
    + intros x. rewrite (rm_multi _ _ _ R), left_anchored. pose proof (st_multi _ _ ST x). case_decide; [|tauto]. split; [by intros [? ?]|tauto].
    + intros x is. rewrite (rm_multi _ _ _ R), E4. case_decide; [done|]. apply (st_mnd _ _ ST).
    + intros h x is [Hm HxD]%(rm_member D w' h x R). rewrite (rm_multi _ _ _ R), decide_False by done. by apply (st_mem _ _ ST).
    + intros x. rewrite (rm_valid _ _ _ R), (st_valid _ _ ST), left_node, left_edge, (rm_island D w' x R).
      pose proof (D_not_island x). tauto.
    + intros x [Hx HxD]%left_node. rewrite E4, left_edge, (rm_island D w' x R). apply (st_node _ _ ST) in Hx. tauto.
    + intros x [Hx HxD]%left_edge. rewrite E4, (rm_island D w' x R). apply (st_edge _ _ ST) in Hx. tauto.
    + intros x Hx. rewrite E4. apply (st_isl _ _ ST). by apply (rm_island D w' x R).
    + intros x Hx. rewrite E4, left_node, left_edge.
      assert (x ∈ w_split w ++ w_wake w ∨ is_island w x) as [Hx'|Hi].
      { rewrite elem_of_app in *. destruct Hx as [Hx|Hx]; [apply P3 in Hx|apply W2 in Hx]; tauto. }
      * apply (st_lists _ _ ST) in Hx'. tauto.
      * split_and!; [by apply (st_isl _ _ ST)|..].
        -- intros [Hx' _]. apply (st_node _ _ ST) in Hx'. tauto.
        -- intros [Hx' _]. apply (st_edge _ _ ST) in Hx'. tauto.
    + intros x. rewrite (rm_proc _ _ _ R), left_procedural, (st_proc _ _ ST). done.
  - split.
    + intros x [Hx HxD]%(rm_asleep _ _ _ R). destruct (sl_up _ (co_slp _ _ C) x Hx) as [Hi|(h & Hh & Ha)].
      * left. by apply (rm_island D w' x R).
      * right. exists h. rewrite left_in_island, (rm_asleep _ _ _ R). split_and!; try done. intros HhD. apply (D_not_island h HhD).
        by eapply core_in_island.
    + intros x h [Hh HxD]%left_in_island [Ha HhD]%(rm_asleep _ _ _ R). apply (rm_asleep _ _ _ R). split; [|done].
      by eapply (sl_down _ (co_slp _ _ C)).
  - done.
  - destruct (co_queue _ _ C) as [Q1 Q2 Q3 Q4]. split; rewrite ?E1, ?E2, ?E4.
    + intros x Hx. destruct (Q1 x Hx) as (? & ? & ? & Q). rewrite left_edge, (rm_island D w' x R), left_procedural. split_and!; [done|tauto|done|].
      intros [Hp HxD]. rewrite (rm_res _ _ _ R), decide_False by done. auto.
    + intros x Hx. destruct (Q2 x Hx) as (? & ? & ? & Q). rewrite left_node, (rm_island D w' x R), left_edge. split_and!; [done|tauto|done|].
      intros [Hp HxD]. rewrite (rm_res _ _ _ R), decide_False by done. auto.
    + intros x [Hp HxD]%left_procedural. rewrite (rm_res _ _ _ R), decide_False by done. auto.
    + intros k x [Hk HkD]%left_ends [Hp _]%left_procedural. rewrite (rm_res _ _ _ R), decide_False by done. by eapply Q4.
  - intros k x [Hk HkD]%left_ends. apply left_node. split; [by eapply (co_wf _ _ C)|]. intros HxD. apply HkD. by eapply Hcl.
Qed.
Lemma left_settled J : J ∉ w_split w' → settled s w J → settled s' w' J.
Proof using All.
  intros HJ HS x y Hx Hy [Hpx HxD]%left_procedural [Hpy HyD]%left_procedural.
  apply (rm_member D w' J x R) in Hx as [Hx _]. apply (rm_member D w' J y R) in Hy as [Hy _].
  specialize (HS x y Hx Hy Hpx Hpy). clear Hy Hpy HyD.
  destruct (rm_split _ _ _ R) as (_ & _ & _ & P4). pose proof (co_part _ _ C) as P.
  assert (member w J y ∧ oconn s' w' x y) as [_ ?]; [|done].
  induction HS as [|y z k H IH Hk Hnu Hp].
  - split; [done|]. apply oc_refl, left_procedural. done.
  - destruct IH as [Hy IH]. assert (Hky : ends s k y) by (exists z; tauto). assert (Hkz : ends s k z) by (exists y; tauto).
    assert (is_Some (w_res w !! k)) as [[K|] HK].
    { apply (pt_res _ _ _ _ P). right. by eapply ends_edge. }
    2:{ by destruct Hnu. }
    pose proof (pt_ends _ _ _ _ P k K y Hky HK) as HKy. pose proof (pt_ends _ _ _ _ P k K z Hkz HK) as HKz.
    assert (procedural s y) as Hpy by (by destruct H).
    assert (K = J) as ->.
    { apply (pt_node _ _ _ _ P) in HKy, Hy; [|done..]. congruence. }
    assert (HkD : k ∉ D) by (intros HkD; apply HJ; by eapply P4).
    split; [done|]. apply oc_step with y k; [done| | |].
    + by rewrite He, decide_False.
    + unfold null. by rewrite (rm_res _ _ _ R), decide_False.
    + apply left_procedural. split; [done|]. intros HzD. apply HJ. eapply P4; [done|]. by apply (pt_node _ _ _ _ P).
Qed.
Lemma left_no_null : no_null_edge s w → no_null_edge s' w'.
Proof using All.
  intros H k x [Hk HkD]%left_ends [Hp _]%left_procedural. unfold null. rewrite (rm_res _ _ _ R), decide_False by done. by apply (H k x).
Qed.
End removed.

Lemma removed_graph w D w1 g : removed w D w1 → removed w D (set_graph w1 g).
Proof. intros []. by split. Qed.

Lemma left_rel s m w D s' m' w' : core s w → rel s m w → removed w D w' →
  (∀ y, sg_nodes s' !! y = if decide (y ∈ D) then None else sg_nodes s !! y) →
  (∀ y, sg_edges s' !! y = if decide (y ∈ D) then None else sg_edges s !! y) →
  (∀ k y, ends s k y → y ∈ D → k ∈ D) →
  hist false (w_graph w') m' →
  (∀ j v, mg_nodes m' !! j = Some v ↔ mg_nodes m !! j = Some v ∧ v.1 ∉ D) →
  (∀ e v, mg_edges m' !! e = Some v ↔ mg_edges m !! e = Some v ∧ v.1.1 ∉ D) →
  rel s' m' w'.
Proof.
  intros C R RM Hn He Hcl Hh HN HE. split.
  - done.
  - intros x i. rewrite (rm_node _ _ _ RM). split.
    + case_decide as HD; [done|]. intros [b Hb]%(rl_node _ _ _ R). exists b. by apply HN.
    + intros [b [Hb HD]%HN]. cbn in HD. rewrite decide_False by done. apply (rl_node _ _ _ R). eauto.
  - intros i x b [Hb HD]%HN. cbn in HD. rewrite Hn, decide_False by done. by eapply (rl_kind _ _ _ R).
  - intros x [Hx HD]%(left_node s D s' Hn). rewrite (rm_node _ _ _ RM), decide_False by done. by apply (rl_live _ _ _ R).
  - intros k e. rewrite (rm_edge _ _ _ RM). split.
    + case_decide as HD; [done|]. intros (i & j & Hb)%(rl_edge _ _ _ R). exists i, j. by apply HE.
    + intros (i & j & [Hb HD]%HE). cbn in HD. rewrite decide_False by done. apply (rl_edge _ _ _ R). eauto.
  - intros e k i j [Hb HD]%HE. cbn in HD. destruct (rl_ends _ _ _ R _ _ _ _ Hb) as (a & b & Hk & Ha & Hbb). exists a, b.
    rewrite He, !(rm_node _ _ _ RM), decide_False by done.
    assert (a ∉ D ∧ b ∉ D) as [HaD HbD].
    { split; intros HH; apply HD; eapply Hcl; [exists b; by left|done|exists a; by right|done]. }
    rewrite !decide_False by done. done.
  - intros k [Hk HD]%(left_edge s D s' He). rewrite (rm_edge _ _ _ RM), decide_False by done. by apply (rl_elive _ _ _ R).
  - intros x. rewrite (rm_proc _ _ _ RM), (rl_proc _ _ _ R), (left_procedural s D s' Hn). done.
Qed.

Lemma graph_step s m w o : rel s m w → legal m o → o ≠ MClear →
  ∃ g r, gstep (w_graph w) o = Ok (g, r) ∧ fresh_result m o r ∧ hist false g (mnext m o r).
Proof.
  intros R Hl Ho. destruct (graph_refines_main _ _ _ (rl_hist _ _ _ R)) as [_ H]. destruct (H o Hl) as (g & r & H1 & H2 & H3).
  exists g, r. split_and!; try done. by destruct o.
Qed.

(** What an operation keeps, besides the invariant *)
Record kept (w w' : world) : Prop := {
  kt_last : w_last w' = w_last w;
  kt_stamp : ∀ h il', w_isl w' !! h = Some il' → ∃ il, w_isl w !! h = Some il ∧ il_sleep il' = il_sleep il;
  kt_asleep : ∀ h, is_island w' h → h ∈ w_asleep w' → h ∈ w_asleep w;
  kt_res : ∀ y h, in_island w' y h → in_island w y h;
  kt_wake : ∀ h, h ∈ w_wake w → h ∈ w_wake w'
}.
Lemma removed_kept w D w' : removed w D w' → kept w w'.
Proof.
  intros R. split.
  - apply R.
  - intros h il' H. destruct (w_isl w !! h) as [il|] eqn:E; [|by rewrite (rm_noisl _ _ _ R h E) in H].
    destruct (rm_isl _ _ _ R h il E) as (il2 & H2 & Hs & _). simplify_eq. eauto.
  - intros h _ [? _]%(rm_asleep _ _ _ R). done.
  - intros y h. unfold in_island. rewrite (rm_res _ _ _ R). by case_decide.
  - apply R.
Qed.

Record del_post (s s' : sgraph) (w w' : world) : Prop := {
  dp_core : core s' w';
  dp_rel : ∃ m', rel s' m' w';
  dp_settled : ∀ J, J ∉ w_split w' → settled s w J → settled s' w' J;
  dp_split : ∀ J, J ∈ w_split w → J ∈ w_split w';
  dp_null : no_null_edge s w → no_null_edge s' w';
  dp_kept : kept w w';
  dp_wake : ∀ y h, in_island w y h → w_res w' !! y = None → h ∈ w_wake w'
}.
Lemma removed_wake w D w' y h : removed w D w' → in_island w y h → w_res w' !! y = None → h ∈ w_wake w'.
Proof. intros R Hy. rewrite (rm_res _ _ _ R). case_decide as HD; [intros _; by eapply (rm_wake _ _ _ R)|]. unfold in_island in Hy. congruence. Qed.

Lemma del_edge_ok s m w k : core s w → rel s m w → is_edge s k →
  ∃ w', del_edge true w k = Ok w' ∧ del_post s (SG (sg_nodes s) (delete k (sg_edges s))) w w'.
Proof.
  intros C R Hk. unfold del_edge. destruct (rl_elive _ _ _ R k Hk) as [e He]. rewrite He. cbn [opt_res mbind res_bind].
  pose proof He as He'. apply (rl_edge _ _ _ R) in He' as (i & j & Hm).
  destruct (graph_step s m w (MRemoveEdge e) R) as (g & r & Hg & -> & Hh); [by eexists|done|].
  cbn [gstep] in Hg. destruct (remove_edge (w_graph w) e) as [g'| | |]; try done. cbn [mbind res_bind] in Hg. injection Hg as ->.
  cbn [mbind res_bind].
  destruct (destroy_resident_ok s w C [] (set_graph w g) k) as (w2 & -> & RM & Hg2).
  { apply removed_graph. by eapply removed_nil. }
  { apply not_elem_of_nil. }
  { apply (pt_res _ _ _ _ (co_part _ _ C)). by right. }
  cbn [mbind res_bind]. eexists. split; [done|]. set (s' := SG _ _).
  assert (Hn : ∀ y, sg_nodes s' !! y = if decide (y ∈ [k]) then None else sg_nodes s !! y).
  { intros y. cbn. case_decide as Hy; [|done]. apply elem_one in Hy as ->. apply eq_None_not_Some. intros Hx.
    by apply (core_sep s w C k). }
  assert (Hed : ∀ y, sg_edges s' !! y = if decide (y ∈ [k]) then None else sg_edges s !! y).
  { intros y. cbn. case_decide as Hy; rewrite elem_one in Hy; [subst y; by rewrite lookup_delete|by rewrite lookup_delete_ne]. }
  assert (Hcl : ∀ k' y, ends s k' y → y ∈ [k] → k' ∈ [k]).
  { intros k' y Hy ->%elem_one. exfalso. apply (core_sep s w C k); [|done]. by eapply (co_wf _ _ C). }
  assert (HD : ∀ x, x ∈ [k] → is_Some (sg_nodes s !! x) ∨ is_edge s x).
  { intros x ->%elem_one. by right. }
  split.
  - by apply (left_core s w C [k]).
  - eexists. eapply (left_rel s m w [k]); try done.
    + cbn. rewrite Hg2. exact Hh.
    + intros y v. cbn. split; [|tauto]. intros Hv. split; [done|]. intros Hk'%elem_one.
      apply (core_sep s w C k); [|done]. destruct v as [z b]. cbn in Hk'. subst z. apply (rl_kind _ _ _ R) in Hv. by eexists.
    + intros e' [[z a] b]. cbn. rewrite lookup_delete_Some, elem_one. split.
      * intros [Hne Hv]. split; [done|]. intros ->. apply Hne.
        assert (w_edge w !! k = Some e') by (apply (rl_edge _ _ _ R); eauto). congruence.
      * intros [Hv Hne]. split; [|done]. intros <-. rewrite Hm in Hv. congruence.
  - intros J. by apply (left_settled s w C [k]).
  - apply RM.
  - by apply (left_no_null s w C [k]).
  - by eapply removed_kept.
  - intros y h. by eapply removed_wake.
Qed.

Lemma del_edges_ok s m w es : core s w → rel s m w → NoDup es → (∀ e, e ∈ es → ∃ k, w_edge w !! k = Some e) →
  ∃ w' D, fold_res (λ w e, k ← edge_entity (w_graph w) e; del_edge false w k) w es = Ok w' ∧ removed w D w' ∧ w_graph w' = w_graph w ∧
    (∀ k, k ∈ D ↔ ∃ e, e ∈ es ∧ w_edge w !! k = Some e).
Proof.
  intros C R Hnd Hes.
  destruct (fold_res_ind (λ w e, k ← edge_entity (w_graph w) e; del_edge false w k)
    (λ l w', ∃ D, removed w D w' ∧ w_graph w' = w_graph w ∧ ∀ k, k ∈ D ↔ ∃ e, e ∈ l ∧ w_edge w !! k = Some e) es w)
    as (w' & Hw' & D & H1 & H2 & H3); [| |by exists w', D].
  - exists []. split_and!; [by eapply removed_nil|done|]. intros k. rewrite elem_none. split; [done|]. intros (e & He & _). by apply elem_of_nil in He.
  - intros l1 e l2 w1 Hl (D & RM & Hg & HD). assert (He : e ∈ es) by (rewrite Hl, elem_of_app, elem_of_cons; tauto).
    assert (He1 : e ∉ l1).
    { rewrite Hl in Hnd. apply NoDup_app in Hnd as (_ & Hd & _). intros Hx. apply (Hd e Hx). apply elem_of_list_here. }
    destruct (Hes e He) as [k Hk]. rewrite Hg, (rel_edge_entity _ _ _ R k e Hk). cbn [mbind res_bind].
    assert (HkD : k ∉ D).
    { rewrite HD. intros (e' & He' & Hk'). rewrite Hk in Hk'. by simplify_eq. }
    unfold del_edge. rewrite (rm_edge _ _ _ RM), decide_False, Hk by done. cbn [opt_res mbind res_bind].
    destruct (destroy_resident_ok s w C D (set_graph w1 (w_graph w1)) k) as (w2 & -> & RM2 & Hg2); [by apply removed_graph|done|..].
    { apply (pt_res _ _ _ _ (co_part _ _ C)). right. by eapply (rel_edge_live _ _ _ R). }
    cbn [mbind res_bind]. eexists. split; [done|]. exists (k :: D). split_and!; [done|cbn; by rewrite Hg2|].
    intros k'. rewrite elem_of_cons, HD. split.
    + intros [->|(e' & He' & Hk')]; [exists e|exists e']; (split; [apply elem_snoc; tauto|done]).
    + intros (e' & He' & Hk'). rewrite elem_snoc in He'. destruct He' as [He'| ->]; [right; eauto|]. left. by eapply (rel_edge_inj _ _ _ R).
Qed.

(** The last step, for procedural bodies, and for others when it succeeds *)
Lemma del_node_ok s m w x : core s w → rel s m w → is_Some (sg_nodes s !! x) →
  (procedural s x → ∃ w', del_node w x = Ok w') ∧
  ∀ w', del_node w x = Ok w' → del_post s (del_body s x) w w'.
Proof.
  intros C R Hx. unfold del_node. destruct (rl_live _ _ _ R x Hx) as [i Hi]. rewrite Hi. cbn [opt_res mbind res_bind].
  destruct (rel_visit_edges _ _ _ R x i Hi) as (es & -> & Hnd & Hes). cbn [mbind res_bind].
  destruct (del_edges_ok s m w es C R Hnd) as (w1 & D & -> & RM & Hg1 & HD).
  { intros e He. apply Hes in He as (k & Hk & _). eauto. }
  cbn [mbind res_bind]. rewrite Hg1.
  assert (Hlive : live_node m i) by (apply (rel_live _ _ _ R); eauto).
  destruct (graph_step s m w (MRemoveAllEdges i) R) as (g2 & r2 & Hg2 & -> & Hh2); [done..|].
  cbn [gstep] in Hg2. destruct (remove_all_edges (w_graph w) i) as [g'| | |]; try done. cbn [mbind res_bind] in Hg2. injection Hg2 as ->.
  cbn [mbind res_bind]. set (m2 := mnext m (MRemoveAllEdges i) None) in *.
  destruct (graph_refines_main _ _ _ Hh2) as [_ Hst]. destruct (Hst (MRemoveNode i)) as (g3 & r3 & Hg3 & -> & Hh3).
  { split; [done|]. intros e (j & z & [Hz|Hz]); cbn in Hz; apply map_filter_lookup_Some in Hz as [_ [Hz1 Hz2]]; done. }
  cbn [gstep] in Hg3. destruct (remove_node g2 i) as [g'| | |]; try done. cbn [mbind res_bind] in Hg3. injection Hg3 as ->.
  cbn [mbind res_bind orb] in *. set (m3 := mnext m2 (MRemoveNode i) None) in *.
  assert (HDe : ∀ k, k ∈ D ↔ ends s k x).
  { intros k. rewrite HD. split.
    - intros (e & He & Hk). apply Hes in He as (k' & Hk' & Hend). by rewrite (rel_edge_inj _ _ _ R k k' e).
    - intros Hk. destruct (rl_elive _ _ _ R k) as [e He]; [by eapply ends_edge|]. exists e. split; [|done]. apply Hes. eauto. }
  assert (HxD : x ∉ D).
  { intros Hk%HDe. apply (core_sep s w C x); [done|]. by eapply ends_edge. }
  assert (Hres : w_res w1 !! x = w_res w !! x) by (rewrite (rm_res _ _ _ RM), decide_False; done).
  assert (Hfin : ∀ w2, removed w (x :: D) (forget w2 x) → w_graph w2 = g3 → del_post s (del_body s x) w (forget w2 x)).
  { intros w2 RM2 Hgg. set (s' := del_body s x).
    assert (Hn : ∀ y, sg_nodes s' !! y = if decide (y ∈ x :: D) then None else sg_nodes s !! y).
    { intros y. cbn. destruct (decide (y = x)) as [->|Hyx].
      - rewrite lookup_delete, decide_True; [done|]. apply elem_of_list_here.
      - rewrite lookup_delete_ne by done. case_decide as Hy; [|done]. apply elem_of_cons in Hy as [?|Hy%HDe]; [done|].
        apply eq_None_not_Some. intros Hn. apply (core_sep s w C y); [done|]. by eapply ends_edge. }
    assert (Hed : ∀ y, sg_edges s' !! y = if decide (y ∈ x :: D) then None else sg_edges s !! y).
    { intros y. cbn. destruct (sg_edges s !! y) as [[a b]|] eqn:E.
      - case_decide as Hy.
        + apply map_filter_lookup_None. right. intros [a' b'] E' [Hf1 Hf2]. simplify_eq. cbn in *. apply elem_of_cons in Hy as [->|Hy%HDe].
          * apply (core_sep s w C x); [done|by eexists].
          * destruct Hy as [z [Hz|Hz]]; congruence.
        + apply map_filter_lookup_Some. split; [done|]. cbn. rewrite elem_of_cons, HDe in Hy.
          split; intros ->; apply Hy; right; eexists; eauto.
      - assert (filter (λ p : nat * (nat * nat), p.2.1 ≠ x ∧ p.2.2 ≠ x) (sg_edges s) !! y = None) as ->; [|by case_decide].
        apply map_filter_lookup_None. by left. }
    assert (Hcl : ∀ k y, ends s k y → y ∈ x :: D → k ∈ x :: D).
    { intros k y Hk [->|Hy%HDe]%elem_of_cons; [apply elem_of_cons; right; by apply HDe|].
      exfalso. apply (core_sep s w C y); [by eapply (co_wf _ _ C)|]. by eapply ends_edge. }
    assert (HDl : ∀ y, y ∈ x :: D → is_Some (sg_nodes s !! y) ∨ is_edge s y).
    { intros y [->|Hy%HDe]%elem_of_cons; [by left|right; by eapply ends_edge]. }
    split.
    - by apply (left_core s w C (x :: D)).
    - exists m3. eapply (left_rel s m w (x :: D)); try done.
      + cbn. by rewrite Hgg.
      + intros j [y b]. cbn. rewrite lookup_delete_Some, elem_of_cons. split.
        * intros [Hne Hv]. split; [done|]. intros [->|Hy%HDe].
          -- apply Hne. assert (w_node w !! x = Some j) by (apply (rl_node _ _ _ R); eauto). congruence.
          -- apply (core_sep s w C y); [|by eapply ends_edge]. apply (rl_kind _ _ _ R) in Hv. by eexists.
        * intros [Hv Hne]. split; [|done]. intros <-. apply Hne. left.
          eapply (rel_node_inj _ _ _ R y x i); [|done]. apply (rl_node _ _ _ R). eauto.
      + intros e [[k a] b]. cbn. rewrite map_filter_lookup_Some, elem_of_cons. cbn. split.
        * intros [Hv [Ha Hb]]. split; [done|].
          destruct (rl_ends _ _ _ R _ _ _ _ Hv) as (p & q & Hk & Hp & Hq).
          intros [->|Hk'%HDe].
          -- apply (core_sep s w C x); [done|]. by eexists.
          -- destruct Hk' as [z [Hz|Hz]]; rewrite Hk in Hz; simplify_eq.
        * intros [Hv Hne]. split; [done|]. destruct (rl_ends _ _ _ R _ _ _ _ Hv) as (p & q & Hk & Hp & Hq).
          split; intros ->; apply Hne; right; apply HDe.
          -- rewrite (rel_node_inj _ _ _ R x p i) by done. exists q. by left.
          -- rewrite (rel_node_inj _ _ _ R x q i) by done. exists p. by right.
    - intros J. by apply (left_settled s w C (x :: D)).
    - apply RM2.
    - by apply (left_no_null s w C (x :: D)).
    - by eapply removed_kept.
    - intros y h. by eapply removed_wake. }
  destruct (decide (is_Some (w_res w !! x))) as [HR|HR].
  - rewrite decide_True by (by cbn; rewrite Hres).
    destruct (destroy_resident_ok s w C D (set_graph w1 g3) x) as (w2 & -> & RM2 & Hgg); [by apply removed_graph|done..|].
    cbn [mbind res_bind]. split; [eauto|]. intros w' [= <-]. by apply Hfin.
  - rewrite decide_False by (by cbn; rewrite Hres). split.
    + intros Hp. exfalso. apply HR, (pt_res _ _ _ _ (co_part _ _ C)). by left.
    + intros w'. destruct (destroy_multi (set_graph w1 g3) x) as [w2| | |] eqn:E; try done. cbn [mbind res_bind]. intros [= <-].
      assert (is_Some (w_multi w !! x)) as [is His].
      { apply (st_multi _ _ (co_store _ _ C)). destruct (node_kind s x Hx) as [Hp|?]; [|done].
        exfalso. apply HR, (pt_res _ _ _ _ (co_part _ _ C)). by left. }
      destruct (destroy_multi_removed s w C D (set_graph w1 g3) x w2 is) as [RM2 Hgg]; [by apply removed_graph|done|..|done|done|].
      { apply eq_None_not_Some. done. }
      by apply Hfin.
Qed.
