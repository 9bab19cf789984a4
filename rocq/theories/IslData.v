(** Effect of inserting into and merging islands. *)
From Coq Require Import ZArith.
From Verif Require Import Outcome IslModel IslSpec IslBase IslInv.

(** What these functions leave alone *)
Record same (w w' : world) : Prop := {
  sm_graph : w_graph w' = w_graph w; sm_node : w_node w' = w_node w; sm_edge : w_edge w' = w_edge w;
  sm_proc : w_proc w' = w_proc w; sm_newn : w_newn w' = w_newn w; sm_newe : w_newe w' = w_newe w;
  sm_split : w_split w' = w_split w; sm_wake : w_wake w' = w_wake w;
  sm_nosleep : w_nosleep w' = w_nosleep w; sm_last : w_last w' = w_last w }.
Lemma same_refl w : same w w. Proof. by split. Qed.
Lemma same_trans w w' w'' : same w w' → same w' w'' → same w w''.
Proof. intros [] []. split; congruence. Qed.

Definition hasres (s : sgraph) (w : world) : Prop :=
  (∀ x, is_Some (w_res w !! x) ↔ procedural s x ∨ is_edge s x) ∧ (∀ x, is_Some (w_multi w !! x) ↔ anchored s x).

Lemma wake_island_spec w h il : w_isl w !! h = Some il →
  ∃ A, wake_island w h = Ok (set_asleep w A) ∧
    (∀ y, y ∈ A ↔ y ∈ w_asleep w ∧ ¬ (h ∈ w_asleep w ∧ (y = h ∨ y ∈ il_nodes il ∨ y ∈ il_edges il))).
Proof.
  intros H. unfold wake_island. case_decide as Hh.
  - rewrite H. cbn. eexists. split; [done|]. intros y.
    rewrite elem_of_difference, !elem_of_union, !elem_lst, elem_of_singleton. tauto.
  - exists (w_asleep w). split; [by destruct w|]. tauto.
Qed.

Lemma insert_to_island_spec s w h il ns es :
  sep s → hasres s w → w_isl w !! h = Some il → NoDup (il_nodes il) → NoDup (il_edges il) → NoDup ns → NoDup es →
  (∀ x, x ∈ ns → is_Some (sg_nodes s !! x)) → (∀ x, x ∈ ns → procedural s x → x ∉ il_nodes il) →
  (∀ k, k ∈ es → is_edge s k ∧ k ∉ il_edges il) → h ∉ ns → h ∉ es →
  ∃ w' nodes', insert_to_island w h ns es = Ok w' ∧ same w w' ∧ w_next w' = w_next w ∧ w_valid w' = w_valid w ∧ w_fast w' = w_fast w ∧
    w_isl w' = <[h := Island nodes' (il_edges il ++ es) (il_sleep il)]> (w_isl w) ∧ NoDup nodes' ∧
    (∀ x, x ∈ nodes' ↔ x ∈ il_nodes il ∨ x ∈ ns) ∧
    (∀ y, w_res w' !! y = if decide ((procedural s y ∧ y ∈ ns) ∨ y ∈ es) then Some (Some h) else w_res w !! y) ∧
    (∀ y, w_multi w' !! y = if decide (y ∈ ns) then add_new h <$> w_multi w !! y else w_multi w !! y) ∧
    (∀ y, y ∈ w_asleep w' ↔ y ∈ w_asleep w ∧ y ∉ ns ∧ y ∉ es ∧
       ¬ (h ∈ w_asleep w ∧ (y = h ∨ y ∈ nodes' ∨ y ∈ il_edges il))).
Proof.
  intros HS [HR HM] Hh Hnd Hed Hns Hes Hl Hnew He Hhn Hhe. unfold insert_to_island.
  destruct (fold_res_ind (insert_node_to h) (λ l w1, same w w1 ∧ w_next w1 = w_next w ∧ w_valid w1 = w_valid w ∧ w_fast w1 = w_fast w ∧
    ∃ nodes', w_isl w1 = <[h := Island nodes' (il_edges il) (il_sleep il)]> (w_isl w) ∧ NoDup nodes' ∧
    (∀ x, x ∈ nodes' ↔ x ∈ il_nodes il ∨ x ∈ l) ∧
    (∀ y, w_res w1 !! y = if decide (procedural s y ∧ y ∈ l) then Some (Some h) else w_res w !! y) ∧
    (∀ y, w_multi w1 !! y = if decide (y ∈ l) then add_new h <$> w_multi w !! y else w_multi w !! y) ∧
    (∀ y, y ∈ w_asleep w1 ↔ y ∈ w_asleep w ∧ y ∉ l)) ns w) as (w1 & -> & Hsm & Hnx & Hv & Hf & nodes' & Hi1 & Hnd1 & Hn1 & Hr1 & Hm1 & Ha1).
  { split_and!; [apply same_refl|done|done|done|]. exists (il_nodes il). split_and!; [|done|..].
    - rewrite insert_id; [done|]. rewrite Hh. by destruct il.
    - set_solver.
    - intros y. rewrite decide_False; [done|set_solver].
    - intros y. rewrite decide_False; [done|set_solver].
    - set_solver. }
  { intros l1 x l2 w1 Hll (Hsm & Hnx & Hv & Hf & nodes' & Hi1 & Hnd1 & Hn1 & Hr1 & Hm1 & Ha1).
    assert (Hxns : x ∈ ns) by (rewrite Hll; set_solver).
    assert (Hxl1 : x ∉ l1).
    { rewrite Hll in Hns. apply NoDup_app in Hns as (_ & Hd & _). intros Hx. apply (Hd x Hx). set_solver. }
    unfold insert_node_to. rewrite Hi1, lookup_insert. cbn [opt_res mbind res_bind il_nodes il_edges il_sleep].
    destruct (node_kind s x (Hl x Hxns)) as [Hp|Ha].
    - assert (is_Some (w_res w1 !! x)) as [r Hr].
      { rewrite Hr1. case_decide; [by eexists|]. apply HR. by left. }
      assert (w_multi w !! x = None) as Hmn.
      { apply eq_None_not_Some. intros Hm. apply HM in Hm. by destruct (kind_excl s x). }
      rewrite Hr. rewrite ss_push_ok.
      2:{ intros Hx. apply Hn1 in Hx as [Hx|Hx]; [by eapply Hnew|done]. }
      cbn [mbind res_bind]. eexists. split; [reflexivity|].
      split_and!; [destruct Hsm; split; done|done|done|done|]. exists (nodes' ++ [x]). cbn [w_isl w_res w_multi w_asleep set_isl set_res set_asleep].
      split_and!.
      + by rewrite insert_insert.
      + apply NoDup_app. split_and!; [done| |apply NoDup_singleton]. intros y Hy Hyx. apply elem_of_list_singleton in Hyx as ->.
        apply Hn1 in Hy as [Hy|Hy]; [by eapply Hnew|done].
      + intros y. rewrite !elem_of_app, Hn1. tauto.
      + intros y. destruct (decide (y = x)) as [->|Hyx].
        * rewrite lookup_insert, decide_True; [done|]. rewrite elem_snoc. tauto.
        * rewrite lookup_insert_ne by done. rewrite Hr1. apply decide_ext. rewrite ?elem_snoc, ?elem_of_cons. tauto.
      + intros y. rewrite Hm1. destruct (decide (y = x)) as [->|Hyx].
        * rewrite Hmn. simpl. by repeat case_decide.
        * apply decide_ext. rewrite ?elem_snoc, ?elem_of_cons. tauto.
      + intros y. rewrite elem_of_difference, Ha1, elem_of_singleton, elem_snoc. tauto.
    - assert (w_res w1 !! x = None) as Hr.
      { rewrite Hr1. rewrite decide_False by (intros [Hp _]; by destruct (kind_excl s x)).
        apply eq_None_not_Some. intros Hr. apply HR in Hr as [Hp|He']; [by destruct (kind_excl s x)|].
        apply (HS x); [by eexists|done]. }
      destruct (proj2 (HM x) Ha) as [is Hmx].
      rewrite Hr. rewrite Hm1, decide_False by done. rewrite Hmx. cbn [opt_res mbind res_bind].
      eexists. split; [reflexivity|].
      split_and!; [destruct Hsm; split; done|done|done|done|]. exists (add_new x nodes').
      cbn [w_isl w_res w_multi w_asleep set_isl set_res set_asleep set_multi]. split_and!.
      + by rewrite Hi1, insert_insert.
      + by apply NoDup_add_new.
      + intros y. rewrite elem_add_new, Hn1, elem_snoc. tauto.
      + intros y. rewrite Hr1. apply decide_ext. destruct (decide (y = x)) as [->|Hyx]; [|rewrite elem_snoc; tauto].
        split; intros [Hp _]; by destruct (kind_excl s x).
      + intros y. destruct (decide (y = x)) as [->|Hyx].
        * rewrite lookup_insert, decide_True by (rewrite elem_snoc; tauto). by rewrite Hmx.
        * rewrite lookup_insert_ne by done. rewrite Hm1. apply decide_ext. rewrite ?elem_snoc, ?elem_of_cons. tauto.
      + intros y. rewrite elem_of_difference, Ha1, elem_of_singleton, elem_snoc. tauto. }
  cbn [mbind res_bind].
  destruct (fold_res_ind (insert_edge_to h) (λ l w2, same w1 w2 ∧ w_next w2 = w_next w1 ∧ w_valid w2 = w_valid w1 ∧ w_fast w2 = w_fast w1 ∧
    w_isl w2 = w_isl w1 ∧ w_multi w2 = w_multi w1 ∧
    (∀ y, w_res w2 !! y = if decide (y ∈ l) then Some (Some h) else w_res w1 !! y) ∧
    (∀ y, y ∈ w_asleep w2 ↔ y ∈ w_asleep w1 ∧ y ∉ l)) es w1) as (w2 & -> & Hsm2 & Hnx2 & Hv2 & Hf2 & Hi2 & Hm2 & Hr2 & Ha2).
  { split_and!; try done. set_solver. }
  { intros l1 k l2 w2 Hll (Hsm2 & Hnx2 & Hv2 & Hf2 & Hi2 & Hm2 & Hr2 & Ha2).
    unfold insert_edge_to. assert (is_Some (w_res w2 !! k)) as [r Hr].
    { rewrite Hr2. case_decide; [by eexists|]. rewrite Hr1. case_decide; [by eexists|]. apply HR. right.
      apply He. rewrite Hll. set_solver. }
    rewrite Hr. cbn [opt_res mbind res_bind]. eexists. split; [reflexivity|].
    split_and!; [destruct Hsm2; split; done|done..| |]; cbn [w_res w_asleep set_res set_asleep].
    - intros y. destruct (decide (y = k)) as [->|Hyx].
      + rewrite lookup_insert, decide_True; [done|]. rewrite elem_snoc. tauto.
      + rewrite lookup_insert_ne by done. rewrite Hr2. apply decide_ext. rewrite ?elem_snoc, ?elem_of_cons. tauto.
    - intros y. rewrite elem_of_difference, Ha2, elem_of_singleton, elem_snoc. tauto. }
  cbn [mbind res_bind]. rewrite Hi2, Hi1, lookup_insert. cbn [opt_res mbind res_bind il_nodes il_edges il_sleep].
  rewrite ss_pushes_ok.
  2:{ apply NoDup_app. split_and!; [done| |done]. intros k Hk Hke. by apply (He k Hke). }
  cbn [mbind res_bind].
  set (w3 := set_isl w2 _).
  assert (Hi3 : w_isl w3 = <[h := Island nodes' (il_edges il ++ es) (il_sleep il)]> (w_isl w)).
  { unfold w3. cbn. by rewrite !insert_insert. }
  destruct (wake_island_spec w3 h (Island nodes' (il_edges il ++ es) (il_sleep il))) as (A & -> & HA).
  { by rewrite Hi3, lookup_insert. }
  exists (set_asleep w3 A), nodes'.
  pose proof (same_trans _ _ _ Hsm Hsm2) as Hsm3.
  split_and!; [done|destruct Hsm3; split; done|cbn; congruence|cbn; congruence|cbn; congruence|done|done|done| | |].
  - intros y. cbn. rewrite Hr2, Hr1. repeat case_decide; tauto.
  - intros y. cbn. rewrite Hm2. apply Hm1.
  - intros y. cbn [w_asleep set_asleep]. rewrite HA. cbn. rewrite !Ha2, !Ha1, elem_of_app. tauto.
Qed.

(** ** Merging *)
Lemma biggest_ok w is : ∀ best size,
  (∀ J, J ∈ is → is_island w J) →
  ∃ b, biggest w is best size = Ok b ∧
    ((b = best ∧ ∀ J il, J ∈ is → w_isl w !! J = Some il → length (il_nodes il) + length (il_edges il) ≤ size) ∨
     (∃ h, b = Some h ∧ h ∈ is)).
Proof.
  induction is as [|J is IH]; intros best size Hi; cbn [biggest].
  { exists best. split; [done|]. left. split; [done|]. set_solver. }
  destruct (Hi J) as [il Hil]; [set_solver|]. rewrite Hil. cbn [opt_res mbind res_bind].
  case_decide as Hs.
  - destruct (IH (Some J) (length (il_nodes il) + length (il_edges il))) as (b & -> & Hb); [set_solver|].
    exists b. split; [done|]. right. destruct Hb as [[-> _]|(h & -> & Hh)]; [exists J|exists h]; set_solver.
  - destruct (IH best size) as (b & -> & Hb); [set_solver|]. exists b. split; [done|].
    destruct Hb as [[-> Hb]|(h & -> & Hh)]; [left|right; exists h; set_solver].
    split; [done|]. intros K il' HK HKl. apply elem_of_cons in HK as [->|HK]; [|by eapply Hb].
    rewrite Hil in HKl. simplify_eq. lia.
Qed.

Lemma foldl_add_new xs : ∀ l, (NoDup l → NoDup (foldl (λ l x, add_new x l) l xs)) ∧ ∀ y, y ∈ foldl (λ l x, add_new x l) l xs ↔ y ∈ l ∨ y ∈ xs.
Proof.
  induction xs as [|x xs IH]; intros l; cbn [foldl]; [set_solver|].
  destruct (IH (add_new x l)) as [H1 H2]. split.
  - intros Hl. by apply H1, NoDup_add_new.
  - intros y. rewrite H2, elem_add_new. set_solver.
Qed.

Lemma gather_ok w is : ∀ ns es,
  (∀ J, J ∈ is → is_island w J) →
  ∃ ns' es', gather w is ns es = Ok (ns', es') ∧ (NoDup ns → NoDup ns') ∧
    (∀ y, y ∈ ns' ↔ y ∈ ns ∨ ∃ J, J ∈ is ∧ member w J y) ∧
    (∀ y, y ∈ es' ↔ y ∈ es ∨ ∃ J, J ∈ is ∧ emember w J y) ∧
    (NoDup es → NoDup is → (∀ J il, w_isl w !! J = Some il → NoDup (il_edges il)) →
     (∀ J y, J ∈ is → emember w J y → y ∉ es) →
     (∀ J K y, emember w J y → emember w K y → J = K) → NoDup es').
Proof.
  induction is as [|J is IH]; intros ns es Hi; cbn [gather].
  { exists ns, es. set_solver. }
  destruct (Hi J) as [il Hil]; [set_solver|]. rewrite Hil. cbn [opt_res mbind res_bind].
  destruct (foldl_add_new (reverse (il_nodes il)) ns) as [F1 F2].
  destruct (IH (foldl (λ l x, add_new x l) ns (reverse (il_nodes il))) (es ++ reverse (il_edges il)))
    as (ns' & es' & -> & Hn & Hns & Hes & Hend); [set_solver|].
  exists ns', es'. split; [done|].
  assert (HmJ : ∀ y, member w J y ↔ y ∈ il_nodes il) by (intros y; unfold member; rewrite Hil; naive_solver).
  assert (HeJ : ∀ y, emember w J y ↔ y ∈ il_edges il) by (intros y; unfold emember; rewrite Hil; naive_solver).
  split_and!.
  - auto.
  - intros y. rewrite Hns, F2, elem_of_reverse, <- HmJ. setoid_rewrite elem_of_cons. naive_solver.
  - intros y. rewrite Hes, elem_of_app, elem_of_reverse, <- HeJ. setoid_rewrite elem_of_cons. naive_solver.
  - intros He Hnd Hed Hdis Hone. apply NoDup_cons in Hnd as [HJ Hnd]. apply Hend; [|done|done| |done].
    + apply NoDup_app. split_and!; [done| |rewrite reverse_Permutation; by eapply Hed].
      intros y Hy Hy'. rewrite elem_of_reverse, <- HeJ in Hy'. by eapply (Hdis J); [set_solver| |].
    + intros K y HK HKy. rewrite elem_of_app, elem_of_reverse, <- HeJ. intros [?|HJy].
      * by eapply (Hdis K); [set_solver| |].
      * apply HJ. by rewrite (Hone J K y).
Qed.

Lemma foldl_drop_island js : ∀ w, let w' := foldl drop_island w js in
  same w w' ∧ w_next w' = w_next w ∧ w_fast w' = w_fast w ∧ w_res w' = w_res w ∧ w_multi w' = w_multi w ∧
  (∀ y, y ∈ w_valid w' ↔ y ∈ w_valid w ∧ y ∉ js) ∧ (∀ y, y ∈ w_asleep w' ↔ y ∈ w_asleep w ∧ y ∉ js) ∧
  (∀ J, w_isl w' !! J = if decide (J ∈ js) then None else w_isl w !! J).
Proof.
  induction js as [|j js IH]; intros w; cbn [foldl].
  { cbn. split_and!; try done; set_solver. }
  destruct (IH (drop_island w j)) as (Hsm & Hnx & Hf & Hr & Hm & Hv & Ha & Hi). cbn zeta.
  split_and!.
  - eapply same_trans; [|exact Hsm]. by split.
  - by rewrite Hnx.
  - by rewrite Hf.
  - by rewrite Hr.
  - by rewrite Hm.
  - intros y. rewrite Hv. cbn. set_solver.
  - intros y. rewrite Ha. cbn. set_solver.
  - intros J. rewrite Hi. cbn. destruct (decide (J = j)) as [->|Hj].
    + rewrite lookup_delete. rewrite (decide_True (P := j ∈ j :: js)) by set_solver. by case_decide.
    + rewrite lookup_delete_ne by done. apply decide_ext. rewrite ?elem_snoc, ?elem_of_cons. tauto.
Qed.

(** ** One component *)
Record absorbed (s : sgraph) (w w' : world) (cn ce is : list nat) (h : nat) : Prop := {
  ab_same : same w w';
  ab_fast : w_fast w' = w_fast w;
  ab_next : w_next w ≤ w_next w' ∧ (is = [] → w_next w' = S (w_next w));
  ab_h : h ∈ is ∨ (is = [] ∧ h = w_next w);
  ab_mem : ∀ J y, member w' J y ↔ (J = h ∧ (y ∈ cn ∨ ∃ K, K ∈ is ∧ member w K y)) ∨ (J ≠ h ∧ J ∉ is ∧ member w J y);
  ab_emem : ∀ J y, emember w' J y ↔ (J = h ∧ (y ∈ ce ∨ ∃ K, K ∈ is ∧ emember w K y)) ∨ (J ≠ h ∧ J ∉ is ∧ emember w J y);
  ab_res1 : ∀ y, moved s (w_res w) cn ce is y → w_res w' !! y = Some (Some h);
  ab_res2 : ∀ y, ¬ moved s (w_res w) cn ce is y → w_res w' !! y = w_res w !! y;
  ab_isl : ∀ J, is_island w' J ↔ J = h ∨ (J ∉ is ∧ is_island w J);
  ab_nd : ∀ J il, w_isl w' !! J = Some il → NoDup (il_nodes il) ∧ NoDup (il_edges il);
  ab_other : ∀ J, J ≠ h → J ∉ is → w_isl w' !! J = w_isl w !! J;
  ab_sleep : ∃ il, w_isl w' !! h = Some il ∧ il_sleep il = w_isl w !! h ≫= il_sleep;
  ab_valid : ∀ y, y ∈ w_valid w' ↔ y = h ∨ (y ∈ w_valid w ∧ y ∉ is);
  ab_multi0 : ∀ y, w_multi w !! y = None → w_multi w' !! y = None;
  ab_multi : ∀ y l, w_multi w !! y = Some l → ∃ l', w_multi w' !! y = Some l' ∧ NoDup l' ∧
    ∀ J, J ∈ l' ↔ (J = h ∧ (y ∈ cn ∨ h ∈ l ∨ ∃ K, K ∈ is ∧ K ≠ h ∧ member w K y)) ∨ (J ≠ h ∧ J ∉ is ∧ J ∈ l);
  ab_asleep : ∀ y, y ∈ w_asleep w' ↔ y ∈ w_asleep w ∧ ¬ moved s (w_res w) cn ce is y ∧ y ∉ is ∧ y ≠ h
}.

Section component.
Context (s : sgraph) (w : world) (cn ce is : list nat).
Context (P : part s (w_res w) (member w) (emember w)) (ST : store s w) (SL : slp w) (HS : sep s).
Context (Hcn : NoDup cn) (Hce : NoDup ce) (His : NoDup is).
Context (Hn : ∀ x, x ∈ cn → is_Some (sg_nodes s !! x) ∧ (procedural s x → w_res w !! x = Some None)).
Context (He : ∀ k, k ∈ ce → is_edge s k ∧ w_res w !! k = Some None).

Lemma emember_one J K y : emember w J y → emember w K y → J = K.
Proof.
  intros H1 H2. assert (is_edge s y) by (by eapply (pt_elive _ _ _ _ P)).
  apply (pt_edge _ _ _ _ P) in H1, H2; [congruence|done..].
Qed.
Lemma member_one J K y : procedural s y → member w J y → member w K y → J = K.
Proof. intros Hp H1 H2. apply (pt_node _ _ _ _ P) in H1, H2; [congruence|done..]. Qed.
Lemma hasres_ok : hasres s w.
Proof. split; [apply P|apply ST]. Qed.
Lemma anchored_awake y : anchored s y → y ∉ w_asleep w.
Proof.
  intros Ha Hs. destruct (sl_up _ SL y Hs) as [H|(h & H & _)].
  - apply (st_node _ _ ST y); [by eexists|done].
  - assert (is_Some (w_res w !! y)) as [Hp|Hk]%(pt_res _ _ _ _ P); [by eexists| |].
    + by eapply kind_excl.
    + apply (HS y); [by eexists|done].
Qed.
Lemma moved_dec' y : moved s (w_res w) cn ce is y ∨ ¬ moved s (w_res w) cn ce is y.
Proof.
  destruct (decide ((procedural s y ∧ y ∈ cn) ∨ y ∈ ce)) as [H|H].
  { left. unfold moved. tauto. }
  destruct (w_res w !! y) as [[J|]|] eqn:E; [destruct (decide (J ∈ is))| |].
  - left. right. right. eauto.
  - right. intros [?|[?|(K & HK & E')]]; [tauto|tauto|]. congruence.
  - right. intros [?|[?|(K & HK & E')]]; [tauto|tauto|]. congruence.
  - right. intros [?|[?|(K & HK & E')]]; [tauto|tauto|]. congruence.
Qed.

(** Inserting the collected and the members of the other islands, then dropping these. *)
Lemma absorb_ok h il ns es others :
  h ∈ is → (∀ J, J ∈ is → is_island w J) → w_isl w !! h = Some il → NoDup ns → NoDup es →
  (∀ J, J ∈ others ↔ J ∈ is ∧ J ≠ h) →
  (∀ y, y ∈ ns ↔ y ∈ cn ∨ ∃ J, J ∈ others ∧ member w J y) →
  (∀ y, y ∈ es ↔ y ∈ ce ∨ ∃ J, J ∈ others ∧ emember w J y) →
  ∃ w1, insert_to_island w h ns es = Ok w1 ∧ w_next w1 = w_next w ∧
    absorbed s w (set_multi (foldl drop_island w1 others) ((λ l, foldl (λ l J, ss_pop J l) l others) <$> w_multi (foldl drop_island w1 others))) cn ce is h.
Proof.
  intros Hh Hisl Hil Hns Hes Ho Hnsi Hesi.
  assert (Hmh : ∀ y, member w h y ↔ y ∈ il_nodes il) by (intros y; unfold member; rewrite Hil; naive_solver).
  assert (Heh : ∀ y, emember w h y ↔ y ∈ il_edges il) by (intros y; unfold emember; rewrite Hil; naive_solver).
  destruct (st_nd _ _ ST h il Hil) as [Hnd Hed].
  assert (Hhisl : is_island w h) by auto.
  assert (Hnlive : ∀ y, y ∈ ns → is_Some (sg_nodes s !! y)).
  { intros y [Hy|(J & _ & Hy)]%Hnsi; [by apply Hn|by eapply (pt_nlive _ _ _ _ P)]. }
  assert (Helive : ∀ y, y ∈ es → is_edge s y).
  { intros y [Hy|(J & _ & Hy)]%Hesi; [by apply He|by eapply (pt_elive _ _ _ _ P)]. }
  destruct (insert_to_island_spec s w h il ns es) as (w1 & nodes' & Hw1 & Hsm & Hnx & Hv & Hf & Hi1 & Hnd1 & Hn1 & Hr1 & Hm1 & Ha1); try done.
  { apply hasres_ok. }
  { intros x Hx Hp Hxi. apply Hmh in Hxi. apply Hnsi in Hx as [Hx|(J & HJ & Hx)].
    - apply (pt_node _ _ _ _ P) in Hxi; [|done]. destruct (Hn x Hx) as [_ Hx']. rewrite Hx' in Hxi by done. done.
    - apply Ho in HJ as [_ HJ]. apply HJ. by eapply member_one. }
  { intros k Hk. split; [auto|]. intros Hki. apply Heh in Hki. apply Hesi in Hk as [Hk|(J & HJ & Hk)].
    - apply (pt_edge _ _ _ _ P) in Hki; [|by apply He]. destruct (He k Hk) as [_ Hk']. congruence.
    - apply Ho in HJ as [_ HJ]. apply HJ. by eapply emember_one. }
  { intros Hx. by apply (st_node _ _ ST h); [auto|]. }
  { intros Hx. by apply (st_edge _ _ ST h); [auto|]. }
  exists w1. split; [done|]. split; [done|].
  destruct (foldl_drop_island others w1) as (Hsm2 & Hnx2 & Hf2 & Hr2 & Hm2 & Hv2 & Ha2 & Hi2).
  set (w2 := foldl drop_island w1 others) in *. cbn zeta in *.
  assert (Hho : h ∉ others) by (rewrite Ho; tauto).
  assert (Hih : w_isl w2 !! h = Some (Island nodes' (il_edges il ++ es) (il_sleep il))).
  { rewrite Hi2, decide_False by done. by rewrite Hi1, lookup_insert. }
  assert (Hio : ∀ J, J ≠ h → J ∉ is → w_isl w2 !! J = w_isl w !! J).
  { intros J HJ HJi. rewrite Hi2, decide_False by (rewrite Ho; tauto). by rewrite Hi1, lookup_insert_ne. }
  assert (Hin : ∀ J, J ≠ h → J ∈ is → w_isl w2 !! J = None).
  { intros J HJ HJi. rewrite Hi2, decide_True by (rewrite Ho; tauto). done. }
  assert (Hmv : ∀ y, ((procedural s y ∧ y ∈ ns) ∨ y ∈ es) ∨ w_res w !! y = Some (Some h) ↔ moved s (w_res w) cn ce is y).
  { intros y. unfold moved. rewrite Hnsi, Hesi. split.
    - intros [[[Hp [Hy|(J & HJ & Hy)]]|[Hy|(J & HJ & Hy)]]|Hy]; [tauto| |tauto| |].
      + right. right. exists J. split; [by apply Ho in HJ as [? _]|]. by apply (pt_node _ _ _ _ P).
      + right. right. exists J. split; [by apply Ho in HJ as [? _]|]. apply (pt_edge _ _ _ _ P); [by eapply (pt_elive _ _ _ _ P)|done].
      + right. right. by exists h.
    - intros [[Hp Hy]|[Hy|(J & HJ & Hy)]]; [tauto|tauto|].
      destruct (decide (J = h)) as [->|HJh]; [by right|]. left.
      assert (is_Some (w_res w !! y)) as [Hp|Hk]%(pt_res _ _ _ _ P); [by eexists| |].
      + left. split; [done|]. right. exists J. split; [by apply Ho|]. by apply (pt_node _ _ _ _ P).
      + right. right. exists J. split; [by apply Ho|]. by apply (pt_edge _ _ _ _ P). }
  split; cbn [w_isl w_res w_multi w_asleep w_next w_fast w_valid set_multi].
  - eapply same_trans; [exact Hsm|]. destruct Hsm2. split; done.
  - by rewrite Hf2.
  - rewrite Hnx2, Hnx. split; [done|]. intros ->. set_solver.
  - by left.
  - intros J y. unfold member at 1. cbn [w_isl set_multi]. destruct (decide (J = h)) as [->|HJ].
    + rewrite Hih. split.
      * intros (il' & [= <-] & Hy). cbn in Hy. left. split; [done|]. apply Hn1 in Hy as [Hy|Hy].
        -- right. exists h. split; [done|]. by apply Hmh.
        -- apply Hnsi in Hy as [?|(J & HJ & ?)]; [by left|]. right. exists J. apply Ho in HJ as [??]. done.
      * intros [(_ & Hy)|(? & _)]; [|done]. eexists. split; [done|]. cbn. rewrite Hn1, Hnsi, <- Hmh.
        destruct Hy as [Hy|(K & HK & Hy)]; [tauto|]. destruct (decide (K = h)) as [->|HKh]; [tauto|].
        right. right. exists K. split; [by apply Ho|done].
    + destruct (decide (J ∈ is)) as [HJi|HJi].
      * rewrite Hin by done. split; [naive_solver|tauto].
      * rewrite Hio by done. unfold member. tauto.
  - intros J y. unfold emember at 1. cbn [w_isl set_multi]. destruct (decide (J = h)) as [->|HJ].
    + rewrite Hih. split.
      * intros (il' & [= <-] & Hy). cbn in Hy. left. split; [done|]. apply elem_of_app in Hy as [Hy|Hy].
        -- right. exists h. split; [done|]. by apply Heh.
        -- apply Hesi in Hy as [?|(J & HJ & ?)]; [by left|]. right. exists J. apply Ho in HJ as [??]. done.
      * intros [(_ & Hy)|(? & _)]; [|done]. eexists. split; [done|]. cbn. rewrite elem_of_app, Hesi, <- Heh.
        destruct Hy as [Hy|(K & HK & Hy)]; [tauto|]. destruct (decide (K = h)) as [->|HKh]; [tauto|].
        right. right. exists K. split; [by apply Ho|done].
    + destruct (decide (J ∈ is)) as [HJi|HJi].
      * rewrite Hin by done. split; [naive_solver|tauto].
      * rewrite Hio by done. unfold emember. tauto.
  - intros y Hy. rewrite Hr2, Hr1. case_decide; [done|]. apply Hmv in Hy. tauto.
  - intros y Hy. rewrite Hr2, Hr1. rewrite decide_False; [done|]. intros H. apply Hy, Hmv. tauto.
  - intros J. unfold is_island at 1. cbn [w_isl set_multi]. destruct (decide (J = h)) as [->|HJ].
    + rewrite Hih. split; [by left|]. intros _. by eexists.
    + destruct (decide (J ∈ is)) as [HJi|HJi].
      * rewrite Hin by done. split; [intros [? ?]; done|tauto].
      * rewrite Hio by done. unfold is_island. tauto.
  - intros J il' HJ. destruct (decide (J = h)) as [->|HJh].
    + rewrite Hih in HJ. injection HJ as <-. cbn. split; [done|]. apply NoDup_app. split_and!; [done| |done].
      intros k Hk Hke. apply Heh in Hk. apply Hesi in Hke as [Hke|(K & HK & Hke)].
      * apply (pt_edge _ _ _ _ P) in Hk; [|by apply He]. destruct (He k Hke) as [_ Hk']. congruence.
      * apply Ho in HK as [_ HK]. apply HK. by eapply emember_one.
    + destruct (decide (J ∈ is)) as [HJi|HJi]; [by rewrite Hin in HJ|]. rewrite Hio in HJ by done. by eapply (st_nd _ _ ST).
  - done.
  - eexists. split; [exact Hih|]. by rewrite Hil.
  - intros y. rewrite Hv2, Hv, Ho. destruct (decide (y = h)) as [->|Hy]; [|tauto].
    split; [by left|]. intros _. split; [|tauto]. apply (st_valid _ _ ST). tauto.
  - intros y Hy. rewrite lookup_fmap, Hm2, Hm1, Hy. by case_decide.
  - intros y l Hy. rewrite lookup_fmap, Hm2, Hm1.
    destruct (st_mnd _ _ ST y l Hy) as [Hl _].
    assert (Ha : anchored s y) by (apply (st_multi _ _ ST); by eexists).
    set (l1 := if decide (y ∈ ns) then add_new h l else l).
    assert (Hl1 : (if decide (y ∈ ns) then add_new h <$> w_multi w !! y else w_multi w !! y) = Some l1).
    { unfold l1. rewrite Hy. by case_decide. }
    rewrite Hl1. cbn [fmap option_fmap option_map].
    assert (Hl1nd : NoDup l1) by (unfold l1; case_decide; [by apply NoDup_add_new|done]).
    destruct (ss_pops_spec others l1 Hl1nd) as [Q1 Q2]. eexists. split; [done|]. split; [done|].
    intros J. rewrite Q2. assert (Hl1e : J ∈ l1 ↔ J ∈ l ∨ (J = h ∧ y ∈ ns)).
    { unfold l1. case_decide; rewrite ?elem_add_new; tauto. }
    rewrite Hl1e, Ho. destruct (decide (J = h)) as [->|HJ].
    + rewrite Hnsi. setoid_rewrite Ho. split.
      * intros [[?|[_ [?|(K & [? ?] & ?)]]] _]; left; (split; [done|]); [tauto|tauto|]. right. right. eauto.
      * intros [(_ & [?|[?|(K & ? & ? & ?)]])|[? _]]; [..|done]; (split; [|tauto]); [tauto|tauto|]. right. split; [done|]. right. eauto.
    + split; [tauto|]. intros [[? _]|?]; tauto.
  - intros y. rewrite Ha2, Ha1, Ho. split.
    + intros ((Hys & Hyn & Hye & Hyh) & Hyo).
      assert (Hyne : y ≠ h) by (intros ->; tauto).
      split_and!; [done| |tauto|done]. rewrite <- Hmv. intros [[[_ ?]|?]|Hyr]; [done..|].
      assert (Hhs : h ∈ w_asleep w).
      { destruct (sl_up _ SL y Hys) as [Hi|(h' & Hh' & Hs)].
        - exfalso. assert (is_Some (w_res w !! y)) as [Hp|Hk]%(pt_res _ _ _ _ P); [by eexists| |].
          + by apply (st_node _ _ ST y); [by apply procedural_node|].
          + by apply (st_edge _ _ ST y).
        - unfold in_island in Hh'. congruence. }
      apply Hyh. split; [done|]. right.
      assert (is_Some (w_res w !! y)) as [Hp|Hk]%(pt_res _ _ _ _ P); [by eexists| |].
      * left. apply Hn1. left. apply Hmh. by apply (pt_node _ _ _ _ P).
      * right. apply Heh. by apply (pt_edge _ _ _ _ P).
    + intros (Hys & Hym & Hyi & Hyh). rewrite <- Hmv in Hym. split; [|tauto]. split_and!; [done| |tauto|].
      * intros Hyn. apply Hym. left. left. split; [|done]. destruct (node_kind s y (Hnlive y Hyn)) as [|Ha]; [done|].
        exfalso. by apply (anchored_awake y).
      * intros (_ & [?|[Hyn|Hye]]); [done| |].
        -- apply Hn1 in Hyn as [Hyn|Hyn].
           ++ apply Hmh in Hyn. assert (Hyl : is_Some (sg_nodes s !! y)) by (by eapply (pt_nlive _ _ _ _ P)).
              destruct (node_kind s y Hyl) as [Hp|Ha]; [|by apply (anchored_awake y)].
              apply Hym. right. by apply (pt_node _ _ _ _ P).
           ++ apply Hym. left. left. split; [|done]. destruct (node_kind s y (Hnlive y Hyn)) as [|Ha]; [done|].
              exfalso. by apply (anchored_awake y).
        -- apply Heh in Hye. apply Hym. right. apply (pt_edge _ _ _ _ P); [by eapply (pt_elive _ _ _ _ P)|done].
Qed.

Lemma set_multi_nil w1 : set_multi (foldl drop_island w1 []) ((λ l, foldl (λ l J, ss_pop J l) l []) <$> w_multi (foldl drop_island w1 [])) = w1.
Proof.
  destruct w1. unfold set_multi. cbn. f_equal. rewrite <- (map_fmap_id w_multi) at 2. apply map_fmap_ext. done.
Qed.
End component.

(** A new island *)
Lemma create_island_ok s w :
  part s (w_res w) (member w) (emember w) → store s w → slp w →
  let w0 := (create_island w).1 in
  part s (w_res w0) (member w0) (emember w0) ∧ store s w0 ∧ slp w0 ∧
  (∀ J y, member w0 J y ↔ member w J y) ∧ (∀ J y, emember w0 J y ↔ emember w J y) ∧
  (∀ J, is_island w0 J ↔ J = w_next w ∨ is_island w J) ∧ w_isl w !! w_next w = None.
Proof.
  intros P ST SL w0.
  assert (Hno : w_isl w !! w_next w = None).
  { apply eq_None_not_Some. intros H. pose proof (st_isl _ _ ST _ H). lia. }
  assert (Hm : ∀ J y, member w0 J y ↔ member w J y).
  { intros J y. unfold member, w0. cbn. destruct (decide (J = w_next w)) as [->|HJ].
    - rewrite lookup_insert, Hno. split; [|naive_solver]. intros (il & [= <-] & Hy). cbn in Hy. by apply elem_of_nil in Hy.
    - by rewrite lookup_insert_ne. }
  assert (He : ∀ J y, emember w0 J y ↔ emember w J y).
  { intros J y. unfold emember, w0. cbn. destruct (decide (J = w_next w)) as [->|HJ].
    - rewrite lookup_insert, Hno. split; [|naive_solver]. intros (il & [= <-] & Hy). cbn in Hy. by apply elem_of_nil in Hy.
    - by rewrite lookup_insert_ne. }
  assert (Hi : ∀ J, is_island w0 J ↔ J = w_next w ∨ is_island w J).
  { intros J. unfold is_island, w0. cbn. destruct (decide (J = w_next w)) as [->|HJ].
    - rewrite lookup_insert. split; [by left|]. by eexists.
    - rewrite lookup_insert_ne by done. tauto. }
  split_and!; try done.
  - destruct P. split.
    + done.
    + intros x h Hx. rewrite Hm. auto.
    + intros x h Hx. rewrite He. auto.
    + intros h x. rewrite Hm. eauto.
    + intros h x. rewrite He. eauto.
    + intros k h x. rewrite Hm. eauto.
    + done.
  - split.
    + intros h il. unfold w0. cbn. intros [[<- <-]|[_ H]]%lookup_insert_Some; [split; constructor|]. by eapply (st_nd _ _ ST).
    + apply ST.
    + intros x l Hl. destruct (st_mnd _ _ ST x l Hl) as [H1 H2]. split; [done|]. intros h Hh. cbn. specialize (H2 h Hh). lia.
    + intros h x l. rewrite Hm. apply ST.
    + intros x. rewrite Hi. cbn. rewrite elem_of_union, elem_of_singleton, (st_valid _ _ ST). tauto.
    + intros x Hx. rewrite Hi. destruct (st_node _ _ ST x Hx) as (H1 & H2 & H3). cbn. split_and!; [lia|done|]. intros [->|?]; [lia|done].
    + intros x Hx. rewrite Hi. destruct (st_edge _ _ ST x Hx) as (H1 & H2). cbn. split_and!; [lia|]. intros [->|?]; [lia|done].
    + intros x [->|Hx]%Hi; cbn; [lia|]. pose proof (st_isl _ _ ST x Hx). lia.
    + intros x Hx. destruct (st_lists _ _ ST x Hx) as (H1 & H2 & H3). cbn. split_and!; [lia|done..].
    + apply ST.
  - split.
    + intros x Hx. rewrite Hi. destruct (sl_up _ SL x Hx) as [?|(h & ? & ?)]; [tauto|]. right. by exists h.
    + intros x h. apply (sl_down _ SL).
Qed.

Lemma component_ok s w c :
  part s (w_res w) (member w) (emember w) → store s w → slp w → sep s →
  NoDup (c_nodes c) → NoDup (c_edges c) → NoDup (c_isles c) →
  (∀ x, x ∈ c_nodes c → is_Some (sg_nodes s !! x) ∧ (procedural s x → w_res w !! x = Some None)) →
  (∀ k, k ∈ c_edges c → is_edge s k ∧ w_res w !! k = Some None) →
  (∀ J, J ∈ c_isles c → ∃ y, member w J y ∨ emember w J y) →
  ∃ w' h, component w c = Ok w' ∧ absorbed s w w' (c_nodes c) (c_edges c) (c_isles c) h.
Proof.
  intros P ST SL HS Hcn Hce His Hn He Hj. destruct c as [cn ce is vis ve]. cbn [c_nodes c_edges c_isles] in *.
  unfold component. cbn [c_nodes c_edges c_isles].
  assert (Hisl : ∀ J, J ∈ is → is_island w J).
  { intros J HJ. destruct (Hj J HJ) as [y [(il & H & _)|(il & H & _)]]; by eexists. }
  destruct is as [|h [|h2 is]].
  - destruct (create_island_ok s w P ST SL) as (P0 & ST0 & SL0 & Hm0 & He0 & Hi0 & Hno).
    set (w0 := (create_island w).1) in *.
    change (create_island w) with (w0, w_next w). cbn iota beta.
    destruct (absorb_ok s w0 cn ce [w_next w] P0 ST0 SL0 HS) with (h := w_next w) (il := Island [] [] None) (ns := cn) (es := ce) (others := @nil nat)
      as (w' & Hw' & Hnx' & A); try done.
    { apply NoDup_singleton. }
    { by apply elem_one. }
    { intros J ->%elem_of_list_singleton. apply Hi0. by left. }
    { unfold w0. cbn. by rewrite lookup_insert. }
    { intros J. rewrite elem_none, elem_one. tauto. }
    { intros y. split; [by left|]. intros [?|(J & HJ & _)]; [done|]. by apply elem_of_nil in HJ. }
    { intros y. split; [by left|]. intros [?|(J & HJ & _)]; [done|]. by apply elem_of_nil in HJ. }
    rewrite set_multi_nil in A. exists w', (w_next w). split; [done|].
    assert (Hrn : ∀ y, w_res w !! y ≠ Some (Some (w_next w))).
    { intros y Hy. assert (is_Some (w_res w !! y)) as [Hp|Hk]%(pt_res _ _ _ _ P); [by eexists| |].
      - apply (pt_node _ _ _ _ P) in Hy as (il & H & _); [|done]. by rewrite Hno in H.
      - apply (pt_edge _ _ _ _ P) in Hy as (il & H & _); [|done]. by rewrite Hno in H. }
    assert (Hmv : ∀ y, moved s (w_res w0) cn ce [w_next w] y ↔ moved s (w_res w) cn ce [] y).
    { intros y. unfold moved. split.
      - intros [?|[?|(J & ->%elem_of_list_singleton & Hy)]]; [tauto|tauto|]. exfalso. by eapply Hrn.
      - intros [?|[?|(J & HJ & Hy)]]; [tauto|tauto|]. by apply elem_of_nil in HJ. }
    destruct A as [Asm Af [An _] Ah Am Ae Ar1 Ar2 Ai And Ao Asl Av Am0 Amu Aas]. split.
    + destruct Asm. split; done.
    + done.
    + split; [unfold w0 in An; cbn in An; lia|]. intros _.
      done.
    + by right.
    + intros J y. rewrite Am. setoid_rewrite elem_of_list_singleton. setoid_rewrite Hm0. split.
      * intros [[-> [?|(K & -> & (il & H & _))]]|(? & ? & ?)]; [by left; auto|by rewrite Hno in H|]. right. split_and!; [done|apply not_elem_of_nil|done].
      * intros [[-> [?|(K & HK & _)]]|(? & ? & ?)]; [by left; auto|by apply elem_of_nil in HK|]. right. done.
    + intros J y. rewrite Ae. setoid_rewrite elem_of_list_singleton. setoid_rewrite He0. split.
      * intros [[-> [?|(K & -> & (il & H & _))]]|(? & ? & ?)]; [by left; auto|by rewrite Hno in H|]. right. split_and!; [done|apply not_elem_of_nil|done].
      * intros [[-> [?|(K & HK & _)]]|(? & ? & ?)]; [by left; auto|by apply elem_of_nil in HK|]. right. done.
    + intros y Hy. by apply Ar1, Hmv.
    + intros y Hy. rewrite Ar2; [done|]. by rewrite Hmv.
    + intros J. rewrite Ai, Hi0, elem_one, elem_none. destruct (decide (J = w_next w)); tauto.
    + done.
    + intros J HJ _. rewrite Ao; [|done|by rewrite elem_one]. unfold w0. cbn. by rewrite lookup_insert_ne.
    + destruct Asl as (il & H1 & H2). exists il. split; [done|]. rewrite H2, Hno. unfold w0. cbn. by rewrite lookup_insert.
    + intros y. rewrite Av. unfold w0. cbn. rewrite elem_one, elem_none, elem_of_union, elem_of_singleton. destruct (decide (y = w_next w)); tauto.
    + done.
    + intros y l Hl. destruct (Amu y l Hl) as (l' & H1 & H2 & H3). exists l'. split; [done|]. split; [done|].
      intros J. rewrite H3. setoid_rewrite elem_of_list_singleton. split.
      * intros [(-> & [?|[?|(K & -> & ? & _)]])|(? & ? & ?)]; [left; auto|left; auto|done|]. right. split_and!; [done|apply not_elem_of_nil|done].
      * intros [(-> & [?|[?|(K & HK & _)]])|(? & ? & ?)]; [left; auto|left; auto|by apply elem_of_nil in HK|]. right. done.
    + intros y. rewrite Aas, Hmv. unfold w0. cbn. rewrite elem_one, elem_none. tauto.
  - destruct (Hisl h) as [il Hil]; [by apply elem_one|].
    destruct (absorb_ok s w cn ce [h] P ST SL HS) with (h := h) (il := il) (ns := cn) (es := ce) (others := @nil nat)
      as (w' & Hw' & Hnx' & A); try done.
    { by apply elem_one. }
    { intros J. rewrite elem_none, elem_one. tauto. }
    { intros y. split; [by left|]. intros [?|(J & HJ & _)]; [done|]. by apply elem_of_nil in HJ. }
    { intros y. split; [by left|]. intros [?|(J & HJ & _)]; [done|]. by apply elem_of_nil in HJ. }
    rewrite set_multi_nil in A. by exists w', h.
  - set (L := h :: h2 :: is) in *. unfold merge_islands.
    rewrite bool_decide_true by (unfold L; cbn; lia). cbn [assert_ mbind res_bind].
    destruct (biggest_ok w L None 0 Hisl) as (b & Hb & Hbb). rewrite Hb. cbn [mbind res_bind].
    destruct Hbb as [[-> Hbb]|(g & -> & Hg)].
    { exfalso. destruct (Hj h) as [y Hy]; [apply elem_of_list_here|].
      destruct Hy as [(il & Hil & Hy)|(il & Hil & Hy)]; specialize (Hbb h il (elem_of_list_here _ _) Hil);
      [destruct (il_nodes il)|destruct (il_edges il)]; cbn in Hbb; try lia; by apply elem_of_nil in Hy. }
    destruct (Hisl g Hg) as [il Hil].
    assert (Ho : ∀ J, J ∈ filter (λ J, J ≠ g) L ↔ J ∈ L ∧ J ≠ g) by (intros J; rewrite elem_of_list_filter; tauto).
    assert (Hond : NoDup (filter (λ J, J ≠ g) L)) by (by apply NoDup_filter).
    set (others := filter (λ J, J ≠ g) L) in *.
    destruct (gather_ok w others cn ce) as (ns & es & Hga & G1 & G2 & G3 & G4).
    { intros J [HJ _]%Ho. auto. }
    rewrite Hga. cbn [mbind res_bind].
    destruct (absorb_ok s w cn ce L P ST SL HS) with (h := g) (il := il) (ns := ns) (es := es) (others := others)
      as (w' & Hw' & Hnx' & A); try done.
    { auto. }
    { apply G4; try done.
      - intros J il' HJ. by apply (st_nd _ _ ST J).
      - intros J y HJ Hy Hyc. destruct (He y Hyc) as [Hye Hyn]. apply (pt_edge _ _ _ _ P) in Hy; [|done]. congruence.
      - intros J K y. by eapply emember_one. }
    rewrite Hw'. cbn [mbind res_bind]. eexists _, g. split; [reflexivity|]. done.
Qed.
