(** What the visitors of init_new_nodes_and_edges collect. *)
From Coq Require Import ZArith.
From Verif Require Import Outcome FreeListModel FreeListProofs GraphModel GraphSpec GraphProofs GraphHist GraphWalk GraphMain
  IslModel IslSpec IslBase IslInv IslData IslRel.

Definition null (w : world) (k : nat) : Prop := w_res w !! k = Some None.
Definition needs (s : sgraph) (w : world) (x : nat) : Prop := null w x ∨ ∃ k, ends s k x ∧ null w k.
Global Instance null_dec w k : Decision (null w k).
Proof. unfold null. apply _. Defined.

Section visit.
Context (s : sgraph) (m : mgraph) (w : world) (R : rel s m w) (P : part s (w_res w) (member w) (emember w)).

Lemma res_kind x r : w_res w !! x = Some r → r = None ∨ ∃ J, r = Some J.
Proof. destruct r; eauto. Qed.

Lemma edge_null_ok k e : w_edge w !! k = Some e → edge_null w e = Ok (bool_decide (null w k)).
Proof.
  intros Hk. unfold edge_null. rewrite (rel_edge_entity _ _ _ R k e Hk). cbn [mbind res_bind].
  assert (is_Some (w_res w !! k)) as [r Hr].
  { apply (pt_res _ _ _ _ P). right. by eapply rel_edge_live. }
  rewrite Hr. cbn [opt_res mbind res_bind]. f_equal. apply bool_decide_ext. unfold null. rewrite Hr. naive_solver.
Qed.
Lemma any_null_ok es : ∀ b0, (∀ e, e ∈ es → ∃ k, w_edge w !! k = Some e) →
  ∃ b, foldl (λ r e, b ← r; n ← edge_null w e; Ok (b || n)) (Ok b0) es = Ok b ∧
    (b = true ↔ b0 = true ∨ ∃ e k, e ∈ es ∧ w_edge w !! k = Some e ∧ null w k).
Proof.
  induction es as [|e es IH]; intros b0 He; cbn [foldl].
  { exists b0. split; [done|]. split; [by left|]. intros [?|(e & k & H & _)]; [done|]. by apply elem_of_nil in H. }
  destruct (He e) as [k Hk]; [apply elem_of_list_here|].
  cbn [mbind res_bind]. rewrite (edge_null_ok k e Hk). cbn [mbind res_bind].
  destruct (IH (b0 || bool_decide (null w k))) as (b & -> & Hb); [intros e' H; apply He; by apply elem_of_list_further|].
  exists b. split; [done|]. rewrite Hb, orb_true_iff, bool_decide_eq_true. split.
  - intros [[?|Hn]|(e' & k' & H1 & H2 & H3)]; [by left| |].
    + right. exists e, k. split_and!; [apply elem_of_list_here|done..].
    + right. exists e', k'. split_and!; [by apply elem_of_list_further|done..].
  - intros [?|(e' & k' & H1 & H2 & H3)]; [by left; left|]. apply elem_of_cons in H1 as [->|H1].
    + left. right. by rewrite (rel_edge_inj _ _ _ R k k' e).
    + right. eauto.
Qed.

Lemma on_should_null x i c : w_node w !! x = Some i → procedural s x → null w x → on_should w i c = Ok (c, true).
Proof.
  intros Hx Hp Hn. unfold on_should. rewrite (rel_node_entity _ _ _ R x i Hx). cbn [mbind res_bind].
  rewrite decide_True by (by apply (rl_proc _ _ _ R)). unfold null in Hn. rewrite Hn. done.
Qed.
Lemma on_should_res x i c J : w_node w !! x = Some i → procedural s x → w_res w !! x = Some (Some J) →
  ∃ b, on_should w i c = Ok (Coll (c_nodes c) (c_edges c) (add_new J (c_isles c)) (c_vis c) (c_vedges c), b) ∧ (b = true ↔ needs s w x).
Proof.
  intros Hx Hp Hn. unfold on_should. rewrite (rel_node_entity _ _ _ R x i Hx). cbn [mbind res_bind].
  rewrite decide_True by (by apply (rl_proc _ _ _ R)). rewrite Hn. cbn [opt_res mbind res_bind].
  destruct (rel_visit_edges _ _ _ R x i Hx) as (es & -> & _ & Hes). cbn [mbind res_bind].
  destruct (any_null_ok es false) as (b & Hf & Hb).
  { intros e He. apply Hes in He as (k & Hk & _). eauto. }
  rewrite Hf. cbn [mbind res_bind]. exists b. split; [done|]. rewrite Hb. unfold needs, null. split.
  - intros [?|(e & k & He & Hk & Hr)]; [done|]. right. exists k. split; [|done].
    apply Hes in He as (k' & Hk' & He). by rewrite (rel_edge_inj _ _ _ R k k' e).
  - intros [?|(k & He & Hr)]; [congruence|]. right.
    destruct (rl_elive _ _ _ R k) as [e Hk]; [by eapply ends_edge|]. exists e, k. split_and!; [|done|done]. apply Hes. eauto.
Qed.
Lemma on_should_anchored x i c : w_node w !! x = Some i → anchored s x →
  on_should w i c = Ok (Coll (add_new x (c_nodes c)) (c_edges c) (c_isles c) (c_vis c) (c_vedges c), false).
Proof.
  intros Hx Ha. unfold on_should. rewrite (rel_node_entity _ _ _ R x i Hx). cbn [mbind res_bind].
  rewrite decide_False; [done|]. intros Hp%(rl_proc _ _ _ R). by eapply kind_excl.
Qed.
Lemma proc_res x : procedural s x → null w x ∨ ∃ J, w_res w !! x = Some (Some J).
Proof.
  intros Hp. assert (is_Some (w_res w !! x)) as [[J|] H] by (apply (pt_res _ _ _ _ P); by left); [right|left]; eauto.
Qed.
Lemma should_ok x i : w_node w !! x = Some i → (should w i = true ↔ procedural s x ∧ needs s w x).
Proof.
  intros Hx. unfold should. destruct (node_kind s x) as [Hp|Ha]; [by eapply rel_node_live|..].
  - destruct (proc_res x Hp) as [Hn|[J HJ]].
    + rewrite (on_should_null x i) by done. split; [|done]. intros _. split; [done|]. by left.
    + destruct (on_should_res x i (Coll [] [] [] ∅ ∅) J Hx Hp HJ) as (b & -> & Hb). rewrite Hb. tauto.
  - rewrite (on_should_anchored x i) by done. split; [done|]. intros [Hp _]. by destruct (kind_excl s x).
Qed.

(** ** One component *)
Context (X : nat → Prop) (V K : gset nat).
Context (HX : ∀ x, X x → procedural s x ∧ needs s w x).
Context (HV : ∀ y j, w_node w !! y = Some j → j ∈ V → procedural s y ∧ ∀ x, (x = y ∨ linked s y x) → procedural s x → ¬ needs s w x).
Context (HK : ∀ k e, w_edge w !! k = Some e → e ∈ K → ¬ null w k).

Definition touches (J : nat) : Prop := ∃ x y, X x ∧ (x = y ∨ linked s x y) ∧ procedural s y ∧ w_res w !! y = Some (Some J).
Record ci (Y : nat → Prop) (D : nat → nat → Prop) (F : nat → Prop) (c : coll) : Prop := {
  ci_nodes : ∀ z, z ∈ c_nodes c ↔ (Y z ∧ null w z) ∨ (anchored s z ∧ ∃ x, D x z);
  ci_edges : ∀ k, k ∈ c_edges c ↔ null w k ∧ F k;
  ci_vedges : ∀ k e, w_edge w !! k = Some e → (e ∈ c_vedges c ↔ e ∈ K ∨ F k);
  ci_sound : ∀ J, J ∈ c_isles c → touches J;
  ci_compl : ∀ x y J, D x y → procedural s y → w_res w !! y = Some (Some J) → J ∈ c_isles c;
  ci_vis : ∀ y j, w_node w !! y = Some j → j ∈ c_vis c →
    procedural s y ∧ (j ∈ V ∨ ∀ J, w_res w !! y = Some (Some J) → J ∈ c_isles c);
  ci_nd : NoDup (c_nodes c) ∧ NoDup (c_edges c) ∧ NoDup (c_isles c)
}.
Lemma ci_ext Y Y' D D' F F' c : (∀ z, Y z ↔ Y' z) → (∀ x z, D x z ↔ D' x z) → (∀ k, F k ↔ F' k) → ci Y D F c → ci Y' D' F' c.
Proof.
  intros H1 H2 H3 []. split; try done.
  - intros z. rewrite ci_nodes0, H1. by setoid_rewrite H2.
  - intros k. by rewrite ci_edges0, H3.
  - intros k e Hk. by rewrite (ci_vedges0 k e Hk), H3.
  - intros x y J Hd. by apply (ci_compl0 x), H2.
Qed.

Lemma ci_on_node Y D F c x i : ci Y D F c → w_node w !! x = Some i → X x → ¬ Y x →
  ∃ c', on_node w i c = Ok c' ∧ ci (λ z, Y z ∨ z = x) D F c' ∧ (∀ J, J ∈ c_isles c → J ∈ c_isles c').
Proof.
  intros C Hx HXx HY. destruct (HX x HXx) as [Hp _]. unfold on_node.
  rewrite (rel_node_entity _ _ _ R x i Hx). cbn [mbind res_bind].
  rewrite bool_decide_true by (by apply (rl_proc _ _ _ R)). cbn [assert_ mbind res_bind].
  destruct (proc_res x Hp) as [Hn|[J HJ]].
  - unfold null in Hn. rewrite Hn. cbn [opt_res mbind res_bind]. eexists. split; [done|]. split; [|done].
    destruct C as [C1 C2 C3 C4 C5 C6 (C7 & C8 & C9)]. split; cbn; try done.
    + intros z. rewrite elem_snoc, C1. split.
      * intros [[[??]|?]| ->]; [left; tauto|by right|]. left. split; [by right|done].
      * intros [[[?| ->] ?]|?]; [left; tauto|by right|by left; right].
    + split_and!; [|done..]. apply NoDup_app. split_and!; [done| |apply NoDup_singleton].
      intros z Hz ->%elem_of_list_singleton. apply C1 in Hz as [[? _]|[Ha _]]; [done|]. by eapply kind_excl.
  - rewrite HJ. cbn [opt_res mbind res_bind]. eexists. split; [done|]. split; [|done].
    destruct C as [C1 C2 C3 C4 C5 C6 (C7 & C8 & C9)]. split; try done.
    intros z. rewrite C1. split; [tauto|]. intros [[[?| ->] Hn]|?]; [tauto| |tauto]. unfold null in Hn. congruence.
Qed.

Lemma ci_edge Y D F c x k e : ci Y D F c → X x → ends s k x → w_edge w !! k = Some e →
  ∃ c', (if decide (e ∈ c_vedges c) then Ok c
         else c ← on_edge w e c; Ok (Coll (c_nodes c) (c_edges c) (c_isles c) (c_vis c) ({[e]} ∪ c_vedges c))) = Ok c' ∧
    ci Y D (λ z, F z ∨ z = k) c' ∧ (∀ J, J ∈ c_isles c → J ∈ c_isles c') ∧ c_vis c' = c_vis c.
Proof.
  intros C HXx Hkx Hk. destruct (HX x HXx) as [Hp _].
  case_decide as He.
  { exists c. split; [done|]. split; [|done]. destruct C as [C1 C2 C3 C4 C5 C6 C7]. split; try done.
    - intros z. rewrite C2. split; [tauto|]. intros [Hn [?| ->]]; [done|]. split; [done|].
      apply (C3 k e Hk) in He as [He|He]; [|done]. by destruct (HK k e).
    - intros z e' Hz. rewrite (C3 z e' Hz). split; [tauto|]. intros [?|[?| ->]]; [tauto..|].
      assert (e' = e) as -> by congruence. by apply (C3 k e Hk). }
  unfold on_edge. rewrite (rel_edge_entity _ _ _ R k e Hk). cbn [mbind res_bind].
  assert (HkF : ¬ F k). { intros HF. apply He, (C.(ci_vedges _ _ _ _) k e Hk). by right. }
  assert (is_Some (w_res w !! k)) as [[J|] Hr].
  { apply (pt_res _ _ _ _ P). right. by eapply ends_edge. }
  - rewrite Hr. cbn [opt_res mbind res_bind c_nodes c_edges c_isles c_vis c_vedges]. eexists. split; [done|].
    split_and!; [|intros J' HJ'; apply elem_add_new; by right|done].
    destruct C as [C1 C2 C3 C4 C5 C6 (C7 & C8 & C9)]. split; cbn; try done.
    + intros z. rewrite C2. split; [tauto|]. intros [Hn [?| ->]]; [done|]. unfold null in Hn. congruence.
    + intros z e' Hz. rewrite elem_of_union, elem_of_singleton, (C3 z e' Hz). split.
      * intros [->|?]; [|tauto]. right. right. by eapply (rel_edge_inj _ _ _ R).
      * intros [?|[?| ->]]; [tauto..|]. left. congruence.
    + intros J'. rewrite elem_add_new. intros [->|?]; [|auto]. exists x, x. split_and!; [done|by left|done|].
      apply (pt_node _ _ _ _ P); [done|]. by eapply (pt_ends _ _ _ _ P).
    + intros a b J' Hd Hb Hbr. apply elem_add_new. right. by eapply C5.
    + intros y j Hy Hj. destruct (C6 y j Hy Hj) as [? [?|H]]; (split; [done|]); [by left|].
      right. intros J' HJ'. apply elem_add_new. right. auto.
    + split_and!; [done..|by apply NoDup_add_new].
  - rewrite Hr. cbn [opt_res mbind res_bind c_nodes c_edges c_isles c_vis c_vedges]. eexists. split; [done|].
    split_and!; [|done|done].
    destruct C as [C1 C2 C3 C4 C5 C6 (C7 & C8 & C9)]. split; cbn; try done.
    + intros z. rewrite elem_snoc, C2. split; [|tauto]. intros [?| ->]; [tauto|]. split; [done|tauto].
    + intros z e' Hz. rewrite elem_of_union, elem_of_singleton, (C3 z e' Hz). split.
      * intros [->|?]; [|tauto]. right. right. by eapply (rel_edge_inj _ _ _ R).
      * intros [?|[?| ->]]; [tauto..|]. left. congruence.
    + split_and!; [done| |done]. apply NoDup_app. split_and!; [done| |apply NoDup_singleton].
      intros z Hz ->%elem_of_list_singleton. by apply C2 in Hz as [_ ?].
Qed.

Lemma ci_replay_edges x es : ∀ Y D F c, ci Y D F c → X x →
  (∀ e, e ∈ es → ∃ k, w_edge w !! k = Some e ∧ ends s k x) →
  ∃ c', replay_edges w es c = Ok c' ∧ ci Y D (λ z, F z ∨ ∃ e, e ∈ es ∧ w_edge w !! z = Some e) c' ∧
    (∀ J, J ∈ c_isles c → J ∈ c_isles c') ∧ c_vis c' = c_vis c.
Proof.
  unfold replay_edges. induction es as [|e es IH]; intros Y D F c C HXx He; cbn [foldl].
  { exists c. split_and!; [done| |done|done]. eapply ci_ext; [done|done| |exact C].
    intros k. split; [by left|]. intros [?|(e & H & _)]; [done|]. by apply elem_of_nil in H. }
  destruct (He e) as (k & Hk & Hkx); [apply elem_of_list_here|].
  destruct (ci_edge Y D F c x k e C HXx Hkx Hk) as (c1 & Hc1 & C1 & Hj1 & Hv1).
  cbn [mbind res_bind]. cbn [mbind res_bind] in Hc1. rewrite Hc1.
  destruct (IH Y D _ c1 C1 HXx) as (c2 & -> & C2 & Hj2 & Hv2).
  { intros e' H. apply He. by apply elem_of_list_further. }
  exists c2. split_and!; [done| |auto|congruence]. eapply ci_ext; [| | |exact C2]; [done|done|].
  intros z. cbn. split.
  - intros [[?| ->]|(e' & H & Hz)]; [tauto| |].
    + right. exists e. split; [apply elem_of_list_here|done].
    + right. exists e'. split; [by apply elem_of_list_further|done].
  - intros [?|(e' & H & Hz)]; [tauto|]. apply elem_of_cons in H as [->|H].
    + left. right. by eapply (rel_edge_inj _ _ _ R).
    + right. eauto.
Qed.

Lemma ci_neighbor Y D F c x y j : ci Y D F c → X x → linked s x y → w_node w !! y = Some j →
  ∃ c', (if decide (j ∈ c_vis c) then Ok c
         else '(c, b) ← on_should w j c;
              Ok (if (b : bool) then Coll (c_nodes c) (c_edges c) (c_isles c) ({[j]} ∪ c_vis c) (c_vedges c) else c)) = Ok c' ∧
    ci Y (λ a b, D a b ∨ (a = x ∧ b = y)) F c' ∧ (∀ J, J ∈ c_isles c → J ∈ c_isles c').
Proof.
  intros C HXx Hl Hj. destruct (HX x HXx) as [Hp Hn].
  case_decide as Hv.
  { exists c. split; [done|]. split; [|done].
    destruct C as [C1 C2 C3 C4 C5 C6 C7]. destruct (C6 y j Hj Hv) as [Hyp Hyj]. split; try done.
    - intros z. rewrite C1. split.
      + intros [?|(? & a & ?)]; [tauto|]. right. split; [done|]. exists a. by left.
      + intros [?|(? & a & [?|[-> ->]])]; [tauto|eauto|]. by destruct (kind_excl s y).
    - intros a b J [?|[-> ->]]; [by eapply C5|]. intros _ HJ. destruct Hyj as [HjV|?]; [|auto].
      exfalso. destruct (HV y j Hj HjV) as [_ Hc]. apply (Hc x); [|done|done]. right. by apply linked_sym. }
  assert (is_Some (sg_nodes s !! y)) as [Hyp|Hya]%node_kind by (by eapply rel_node_live).
  - destruct (proc_res y Hyp) as [Hyn|[J HJ]].
    + rewrite (on_should_null y j) by done. cbn [mbind res_bind]. eexists. split; [done|]. cbn. split; [|done].
      destruct C as [C1 C2 C3 C4 C5 C6 C7]. split; cbn; try done.
      * intros z. rewrite C1. split.
        -- intros [?|(? & a & ?)]; [tauto|]. right. split; [done|]. exists a. by left.
        -- intros [?|(? & a & [?|[-> ->]])]; [tauto|eauto|]. by destruct (kind_excl s y).
      * intros a b J [?|[-> ->]]; [by eapply C5|]. unfold null in Hyn. congruence.
      * intros z i Hz. rewrite elem_of_union, elem_of_singleton. intros [->|?]; [|auto].
        rewrite (rel_node_inj _ _ _ R z y j) by done. split; [done|]. right. unfold null in Hyn. congruence.
    + destruct (on_should_res y j c J Hj Hyp HJ) as (b & -> & Hb). cbn [mbind res_bind]. eexists. split; [done|].
      assert (Hci : ci Y (λ a b, D a b ∨ a = x ∧ b = y) F (Coll (c_nodes c) (c_edges c) (add_new J (c_isles c)) (if b then {[j]} ∪ c_vis c else c_vis c) (c_vedges c))).
      { destruct C as [C1 C2 C3 C4 C5 C6 (C7 & C8 & C9)]. split; cbn; try done.
        - intros z. rewrite C1. split.
          + intros [?|(? & a & ?)]; [tauto|]. right. split; [done|]. exists a. by left.
          + intros [?|(? & a & [?|[-> ->]])]; [tauto|eauto|]. by destruct (kind_excl s y).
        - intros J'. rewrite elem_add_new. intros [->|?]; [|auto]. exists x, y. auto.
        - intros a b' J' [?|[-> ->]] Hb1 Hb2; apply elem_add_new; [right; by eapply C5|left; congruence].
        - intros z i Hz Hi. assert (i = j ∨ i ∈ c_vis c) as [->|Hi'] by (destruct b; set_solver).
          + rewrite (rel_node_inj _ _ _ R z y j) by done. split; [done|]. right. intros J' HJ'. apply elem_add_new. left. congruence.
          + destruct (C6 z i Hz Hi') as [? [?|H]]; (split; [done|]); [by left|]. right. intros J' HJ'. apply elem_add_new. right. auto.
        - split_and!; [done..|by apply NoDup_add_new]. }
      split; destruct b; cbn; try done; intros J' HJ'; apply elem_add_new; by right.
  - rewrite (on_should_anchored y j) by done. cbn [mbind res_bind]. eexists. split; [done|]. cbn. split; [|done].
    destruct C as [C1 C2 C3 C4 C5 C6 (C7 & C8 & C9)]. split; cbn; try done.
    + intros z. rewrite elem_add_new, C1. split.
      * intros [->|[?|(? & a & ?)]]; [|tauto|].
        -- right. split; [done|]. exists x. by right.
        -- right. split; [done|]. exists a. by left.
      * intros [?|(? & a & [?|[-> ->]])]; [tauto|eauto|tauto].
    + intros a b J [?|[-> ->]]; [by eapply C5|]. intros Hp'. by destruct (kind_excl s y).
    + split_and!; [by apply NoDup_add_new|done..].
Qed.

Context (N : nat → list (nat * nat)) (E : nat → nat → list nat) (LA : gset nat) (RG : grep None (w_graph w) m N E LA).

Lemma ci_replay_adj Y D F c x i a j : ci Y D F c → X x → w_node w !! x = Some i → (a, j) ∈ N i →
  ∃ c' y, w_node w !! y = Some j ∧ linked s x y ∧ replay_adj w c a = Ok c' ∧
    ci Y (λ p q, D p q ∨ (p = x ∧ q = y)) (λ z, F z ∨ ∃ e, e ∈ E i j ∧ w_edge w !! z = Some e) c' ∧
    (∀ J, J ∈ c_isles c → J ∈ c_isles c').
Proof.
  intros C HXx Hx Ha. unfold replay_adj.
  destruct (r_adj _ _ _ _ _ _ RG i a j Ha) as (nx & Hae & _ & _).
  rewrite (fl_get_elem _ _ _ Hae). cbn [mbind res_bind fst a_edge a_node].
  rewrite (collect_E _ _ N E LA i j RG). cbn [mbind res_bind].
  assert (Hadj : adjacent m i j).
  { apply (r_N_iff _ _ N E LA i j RG). apply elem_of_list_fmap. by exists (a, j). }
  destruct (rel_adjacent_ent _ _ _ R x i j Hx Hadj) as (y & Hy & Hl).
  destruct (ci_replay_edges x (E i j) Y D F c C HXx) as (c1 & -> & C1 & Hj1 & Hv1).
  { intros e He. apply (r_E _ _ _ _ _ _ RG) in He.
    destruct (rel_incident_ent _ _ _ R e i) as [k Hk]; [by eexists|]. exists k. split; [done|].
    apply (rel_incident _ _ _ R k e x i); [done|done|]. by eexists. }
  cbn [mbind res_bind opt_res].
  destruct (ci_neighbor _ _ _ _ x y j C1 HXx Hl Hy) as (c2 & Hc2 & C2 & Hj2).
  exists c2, y. split_and!; [done|done|exact Hc2|done|auto].
Qed.

Lemma ci_replay_adjs x i L : ∀ Y D F c, ci Y D F c → X x → w_node w !! x = Some i → (∀ p, p ∈ L → p ∈ N i) →
  ∃ c', foldl (λ r a, c ← r; replay_adj w c a) (Ok c) L.*1 = Ok c' ∧
    ci Y (λ p q, D p q ∨ (p = x ∧ ∃ j, j ∈ L.*2 ∧ w_node w !! q = Some j))
      (λ z, F z ∨ ∃ j e, j ∈ L.*2 ∧ e ∈ E i j ∧ w_edge w !! z = Some e) c' ∧
    (∀ J, J ∈ c_isles c → J ∈ c_isles c').
Proof.
  induction L as [|[a j] L IH]; intros Y D F c C HXx Hx HL; cbn [fmap list_fmap fst snd foldl].
  { exists c. split_and!; [done| |done]. eapply ci_ext; [done|..|exact C].
    - intros p q. split; [by left|]. intros [?|(_ & j & H & _)]; [done|]. by apply elem_of_nil in H.
    - intros z. split; [by left|]. intros [?|(j & e & H & _)]; [done|]. by apply elem_of_nil in H. }
  destruct (ci_replay_adj Y D F c x i a j C HXx Hx) as (c1 & y & Hy & Hl & Hc1 & C1 & Hj1).
  { apply HL, elem_of_list_here. }
  cbn [mbind res_bind]. rewrite Hc1.
  destruct (IH _ _ _ c1 C1 HXx Hx) as (c2 & Hc2 & C2 & Hj2).
  { intros p Hp. by apply HL, elem_of_list_further. }
  exists c2. split_and!; [exact Hc2| |auto]. eapply ci_ext; [| | |exact C2]; [done|..].
  - intros p q. cbn. setoid_rewrite elem_of_cons. split.
    + intros [[?|[-> ->]]|(-> & j' & ? & ?)]; [tauto|right; eauto|right; eauto 6].
    + intros [?|(-> & j' & [->|?] & ?)]; [tauto| |eauto 6]. left. right. split; [done|]. by eapply (rel_node_inj _ _ _ R).
  - intros z. cbn. setoid_rewrite elem_of_cons. split.
    + intros [[?|(e & ? & ?)]|(j' & e & ? & ? & ?)]; [tauto|right; eauto 8|right; eauto 8].
    + intros [?|(j' & e & [->|?] & ? & ?)]; [tauto|eauto 6|eauto 8].
Qed.

Lemma ci_replay_node Y D F c x i : ci Y D F c → X x → w_node w !! x = Some i → ¬ Y x →
  ∃ c', replay_node w c i = Ok c' ∧
    ci (λ z, Y z ∨ z = x) (λ p q, D p q ∨ (p = x ∧ linked s x q)) (λ z, F z ∨ ends s z x) c' ∧
    (∀ J, J ∈ c_isles c → J ∈ c_isles c').
Proof.
  intros C HXx Hx HY. unfold replay_node. destruct (HX x HXx) as [Hp _].
  destruct (ci_on_node Y D F c x i C Hx HXx HY) as (c1 & -> & C1 & Hj1). cbn [mbind res_bind].
  assert (Hm : mg_nodes m !! i = Some (x, false)) by (by apply (rel_procedural _ _ _ R x i Hx)).
  destruct (grep_node_plain _ _ _ _ _ _ _ _ RG Hm) as (h & nx & He & _).
  rewrite (fl_get_elem _ _ _ He). cbn [mbind res_bind fst n_nc n_adj].
  rewrite (collect_N _ _ N E LA i x false h nx RG Hm He). cbn [mbind res_bind].
  destruct (ci_replay_adjs x i (N i) _ _ _ c1 C1 HXx Hx) as (c2 & -> & C2 & Hj2); [done|].
  exists c2. split_and!; [done| |auto]. eapply ci_ext; [| | |exact C2]; [done|..].
  - intros p q. cbn. split.
    + intros [?|(-> & j & Hj & Hq)]; [tauto|]. right. split; [done|]. apply (r_N_iff _ _ N E LA i j RG) in Hj.
      by eapply (rel_adjacent _ _ _ R x q i j).
    + intros [?|(-> & Hl)]; [tauto|]. right. split; [done|].
      assert (is_Some (w_node w !! q)) as [j Hj].
      { apply (rl_live _ _ _ R). apply linked_edge in Hl as (k & _ & Hl). by eapply (rel_wf _ _ _ R). }
      exists j. split; [|done]. apply (r_N_iff _ _ N E LA i j RG). by eapply (rel_adjacent _ _ _ R x q).
  - intros z. cbn. split.
    + intros [?|(j & e & Hj & Hz & Hze)]; [tauto|]. right. apply (rel_incident _ _ _ R z e x i Hze Hx).
      exists j. by apply (r_E _ _ _ _ _ _ RG).
    + intros [?|Hz]; [tauto|]. right. assert (is_edge s z) as Hze by (by eapply ends_edge).
      destruct (rl_elive _ _ _ R z Hze) as [e Hze'].
      apply (rel_incident _ _ _ R z e x i Hze' Hx) in Hz as [j Hj]. exists j, e. split_and!; [|by apply (r_E _ _ _ _ _ _ RG)|done].
      apply (r_N_iff _ _ N E LA i j RG). by exists e.
Qed.

Lemma ci_replay l : ∀ Y D F c, ci Y D F c → NoDup l → (∀ i, i ∈ l → ∃ x, w_node w !! x = Some i ∧ X x ∧ ¬ Y x) →
  ∃ c', replay w l c = Ok c' ∧
    ci (λ z, Y z ∨ ∃ i, i ∈ l ∧ w_node w !! z = Some i)
       (λ p q, D p q ∨ ((∃ i, i ∈ l ∧ w_node w !! p = Some i) ∧ linked s p q))
       (λ z, F z ∨ ∃ x i, i ∈ l ∧ w_node w !! x = Some i ∧ ends s z x) c' ∧
    (∀ J, J ∈ c_isles c → J ∈ c_isles c').
Proof.
  unfold replay. induction l as [|i l IH]; intros Y D F c C Hnd Hl; cbn [foldl].
  { exists c. split_and!; [done| |done]. eapply ci_ext; [..|exact C].
    - intros z. split; [by left|]. intros [?|(i & H & _)]; [done|]. by apply elem_of_nil in H.
    - intros p q. split; [by left|]. intros [?|((i & H & _) & _)]; [done|]. by apply elem_of_nil in H.
    - intros z. split; [by left|]. intros [?|(x & i & H & _)]; [done|]. by apply elem_of_nil in H. }
  apply NoDup_cons in Hnd as [Hi Hnd].
  destruct (Hl i) as (x & Hx & HXx & HY); [apply elem_of_list_here|].
  destruct (ci_replay_node Y D F c x i C HXx Hx HY) as (c1 & Hc1 & C1 & Hj1).
  cbn [mbind res_bind]. rewrite Hc1.
  destruct (IH _ _ _ c1 C1 Hnd) as (c2 & Hc2 & C2 & Hj2).
  { intros j Hj. destruct (Hl j) as (y & Hy & HXy & HYy); [by apply elem_of_list_further|].
    exists y. split_and!; [done..|]. intros [?| ->]; [done|]. by assert (i = j) as -> by congruence. }
  exists c2. split_and!; [exact Hc2| |auto]. eapply ci_ext; [| | |exact C2].
  - intros z. cbn. setoid_rewrite elem_of_cons. split.
    + intros [[?| ->]|(j & ? & ?)]; [tauto|right; eauto|right; eauto].
    + intros [?|(j & [->|?] & ?)]; [tauto| |eauto]. left. right. by eapply (rel_node_inj _ _ _ R).
  - intros p q. cbn. setoid_rewrite elem_of_cons. split.
    + intros [[?|[-> ?]]|((j & ? & ?) & ?)]; [tauto|right; eauto|right; eauto].
    + intros [?|((j & [->|?] & ?) & ?)]; [tauto| |right; eauto]. left. right.
      assert (p = x) as -> by (by eapply (rel_node_inj _ _ _ R)). done.
  - intros z. cbn. setoid_rewrite elem_of_cons. split.
    + intros [[?|?]|(y & j & ? & ? & ?)]; [tauto|right; exists x, i; auto|right; exists y, j; auto].
    + intros [?|(y & j & [->|?] & ? & ?)]; [tauto| |right; exists y, j; auto]. left. right.
      by rewrite (rel_node_inj _ _ _ R x y i).
Qed.
End visit.
