(** Proofs about the broadphase: finding the pairs and making the manifolds. *)
From Verif Require Import Outcome TreeModel TreeSpec TreeProofs TreeHist TreeProps BoxModel BoxProofs
  MapModel MapSpec MapProofs BroadModel BroadSpec BroadProofs.

Section proofs.
Context (G : geom).
Notation box := (aabb (g_T G)).
Notation bw := (bw G).
Implicit Types w : bw.

Lemma concat_res_ok {A B} (f : A → res (list B)) l :
  (∀ x, x ∈ l → ∃ k, f x = Ok k) →
  ∃ ks, concat_res (map f l) = Ok ks ∧ ∀ y, y ∈ ks ↔ ∃ x k, x ∈ l ∧ f x = Ok k ∧ y ∈ k.
Proof.
  induction l as [|x l IH]; intros Hf.
  { exists []. split; [done|]. intros y. split; [by intros ?%elem_of_nil|]. by intros (x & k & ?%elem_of_nil & _). }
  destruct (Hf x) as (k & Ek); [left|]. destruct IH as (ks & Eks & Hks); [intros; apply Hf; by right|].
  exists (k ++ ks). cbn [map concat_res foldr]. rewrite Ek. cbn [mbind res_bind].
  unfold concat_res in Eks. rewrite Eks. split; [done|]. intros y. rewrite elem_of_app, Hks. split.
  - intros [Hy|(x' & k' & ? & ? & ?)]; [exists x, k; split; [left|done]|exists x', k'; split; [by right|done]].
  - intros (x' & k' & [->|Hx]%elem_of_cons & E & Hy); [left; congruence|right; eauto].
Qed.

(** ** The pairs *)
Lemma pairs_one_ok sc w M st p e q id lf :
  binv G w M st → M p !! id = Some lf →
  ∃ o b k, lf_ent lf = Some o ∧ b_res G w !! o = Some (id, p) ∧ b_aabb G w !! o = Some b ∧
    pairs_one G sc (tree_of G w p) e q w id = Ok k ∧
    (∀ x y, (x, y) ∈ k ↔ x = e ∧ y = o ∧ sc e o = true ∧ o ∉ b_dis G w ∧ touch G q b = true).
Proof.
  intros I Hlf. destruct (bi_leaf _ _ _ _ I p id lf Hlf) as (o & Ho & Hr).
  destruct (bi_res _ _ _ _ I o id p Hr) as (_ & lf' & b & Hlf' & _ & Hb & _).
  destruct (get_leaf G _ _ id lf (bi_tree _ _ _ _ I p) Hlf) as (n & Hn & Hc).
  unfold pairs_one. rewrite Hn. cbn [mbind res_bind]. rewrite Hc, Ho. cbn [opt_res mbind res_bind].
  destruct (sc e o) eqn:Es; cbn [andb].
  - destruct (bool_decide (o ∈ b_dis G w)) eqn:Ed; cbn [negb].
    + apply bool_decide_eq_true in Ed. exists o, b, []. split_and!; try done. intros x y.
      rewrite elem_of_nil. tauto.
    + apply bool_decide_eq_false in Ed. rewrite Hb. cbn [opt_res mbind res_bind].
      exists o, b, (if touch G q b then [(e, o)] else []). split_and!; try done. intros x y.
      destruct (touch G q b).
      * rewrite elem_of_list_singleton. split; [by intros [= -> ->]|]. by intros (-> & -> & _).
      * rewrite elem_of_nil. split; [done|]. by intros (_ & _ & _ & _ & ?).
  - exists o, b, []. split_and!; try done. intros x y. rewrite elem_of_nil. split; [done|]. intros (_ & _ & ? & _); congruence.
Qed.

Lemma pairs_tree_ok sc w M st p e q :
  binv G w M st →
  ∃ l ps, traverse_tree (tree_of G w p) (λ b, touch G b q) = Ok l ∧ pairs_tree G sc p e q w = Ok ps ∧
    (∀ i, i ∈ l → is_Some (M p !! i)) ∧
    ∀ x y, (x, y) ∈ ps ↔ x = e ∧ sc e y = true ∧ y ∉ b_dis G w ∧
      ∃ id b, id ∈ l ∧ b_res G w !! y = Some (id, p) ∧ b_aabb G w !! y = Some b ∧ touch G q b = true.
Proof.
  intros I. destruct (C07_calls_return _ _ _ _ _ _ _ _ _ _ _ _ (bi_tree _ _ _ _ I p)) as (_ & _ & _ & Ht).
  destruct (Ht (λ b, touch G b q)) as (l & El & Hnd & Hl). unfold pairs_tree. rewrite El. cbn [mbind res_bind].
  destruct (concat_res_ok (pairs_one G sc (tree_of G w p) e q w) l) as (ps & Eps & Hps).
  { intros i Hi. destruct (Hl i Hi) as [lf Hlf].
    destruct (pairs_one_ok sc w M st p e q i lf I Hlf) as (o & b & k & _ & _ & _ & E & _). eauto. }
  exists l, ps. split_and!; try done. intros x y. rewrite Hps. split.
  - intros (i & k & Hi & E & Hk). destruct (Hl i Hi) as [lf Hlf].
    destruct (pairs_one_ok sc w M st p e q i lf I Hlf) as (o & b & k' & _ & Hr & Hb & E' & Hk').
    rewrite E in E'. injection E' as <-. apply Hk' in Hk as (-> & -> & ? & ? & ?). split_and!; try done. by exists i, b.
  - intros (-> & Hs & Hd & id & b & Hi & Hr & Hb & Htq). destruct (Hl id Hi) as [lf Hlf].
    destruct (pairs_one_ok sc w M st p e q id lf I Hlf) as (o & b' & k & Ho & Hr' & Hb' & E & Hk).
    destruct (bi_res _ _ _ _ I y id p Hr) as (_ & lf' & b2 & Hlf' & Hy & _). assert (o = y) as -> by congruence.
    exists id, k. split_and!; try done. apply Hk. split_and!; try done. congruence.
Qed.

Lemma pairs_of_ok sc w M st e :
  binv G w M st → is_Some (b_aabb G w !! e) →
  ∃ ps, pairs_of G sc w e = Ok ps ∧
    (∀ x y, (x, y) ∈ ps → x = e ∧ sc e y = true ∧ y ∉ b_dis G w ∧ near G (g_off G) w e y).
Proof.
  intros I [be Hbe]. unfold pairs_of. rewrite Hbe. cbn [opt_res mbind res_bind].
  destruct (pairs_tree_ok sc w M st true e (off_box G be) I) as (l1 & p1 & _ & -> & _ & H1).
  destruct (pairs_tree_ok sc w M st false e (off_box G be) I) as (l2 & p2 & _ & -> & _ & H2).
  cbn [mbind res_bind]. exists (p1 ++ p2). split; [done|]. intros x y [Hx|Hx]%elem_of_app.
  - apply H1 in Hx as (-> & ? & ? & id & b & _ & _ & ? & ?). split_and!; try done. by exists be, b.
  - apply H2 in Hx as (-> & ? & ? & id & b & _ & _ & ? & ?). split_and!; try done. by exists be, b.
Qed.

(** Every body near, whose AABB the tree knows, is found. *)
Lemma pairs_of_complete sc w M st e y ps :
  total_order (g_leb G) (g_ltb G) → grows G (g_fat G) →
  binv G w M st → b_new G w = [] → pairs_of G sc w e = Ok ps →
  sc e y = true → y ∉ b_dis G w → y ∉ st → near G (g_off G) w e y → (e, y) ∈ ps.
Proof.
  intros O Fat I Hnew E Hs Hd Hst (be & b & Hbe & Hb & Ht).
  destruct (bi_aabb _ _ _ _ I y) as (_ & [[[id p] Hr]|Hn]); [by eexists| |rewrite Hnew in Hn; by apply elem_of_nil in Hn].
  destruct (bi_res _ _ _ _ I y id p Hr) as (_ & lf & b' & Hlf & _ & Hb' & Hg). specialize (Hg Hst).
  rewrite Hb in Hb'. injection Hb' as <-.
  assert (K : ∀ l, traverse_tree (tree_of G w p) (λ b, touch G b (off_box G be)) = Ok l → id ∈ l).
  { intros l El. eapply (C08_query_misses_nothing (g_leb G) (g_ltb G) (g_add G) (g_sub G) (g_mul G) (g_two G)
      (g_fat G) (g_box0 G) O Fat _ _ (off_box G be) l id lf (bi_tree _ _ _ _ I p) El Hlf).
    rewrite Hg. rewrite intersect_sym. exact Ht. }
  unfold pairs_of in E. rewrite Hbe in E. cbn [opt_res mbind res_bind] in E.
  destruct (pairs_tree_ok sc w M st true e (off_box G be) I) as (l1 & p1 & T1 & E1 & _ & H1). rewrite E1 in E.
  destruct (pairs_tree_ok sc w M st false e (off_box G be) I) as (l2 & p2 & T2 & E2 & _ & H2). rewrite E2 in E.
  cbn [mbind res_bind] in E. injection E as <-. apply elem_of_app. destruct p.
  - left. apply H1. split_and!; try done. exists id, b. split_and!; try done. by apply K.
  - right. apply H2. split_and!; try done. exists id, b. split_and!; try done. by apply K.
Qed.

(** ** Making the manifolds *)
(** States that differ in the manifolds only *)
Definition mans w w' : Prop :=
  w' = BW G (b_tree G w) (b_np G w) (b_new G w) (b_valid G w') (b_aabb G w) (b_res G w) (b_proc G w) (b_kin G w)
       (b_off G w) (b_dis G w) (b_man G w') (b_next G w').
Lemma mans_refl w : mans w w.
Proof. by destruct w. Qed.
Lemma mans_trans w1 w2 w3 : mans w1 w2 → mans w2 w3 → mans w1 w3.
Proof. unfold mans. intros E1 E2. rewrite E2, E1. done. Qed.
Lemma mans_tree w w' p : mans w w' → tree_of G w' p = tree_of G w p.
Proof. unfold mans. intros ->. done. Qed.
Lemma make_mans w a b w' : make_manifold G w a b = Ok w' → mans w w'.
Proof.
  unfold make_manifold, new_ent. intros (_ & _ & (_ & _ & (s & _ & [= <-])%bind_ok)%bind_ok)%bind_ok. done.
Qed.
Lemma finish_mans w ab w' : finish_one G w ab = Ok w' → mans w w'.
Proof.
  unfold finish_one. destruct (mm_contains _ _ _); [|apply make_mans]. intros [= <-]. apply mans_refl.
Qed.
Lemma finish_fold_mans l : ∀ w w', fold_w G (finish_one G) w l = Ok w' → mans w w'.
Proof.
  induction l as [|x l IH]; intros w w'.
  - intros [= <-]. apply mans_refl.
  - rewrite fold_w_cons. intros (w1 & E1 & E2)%bind_ok. eapply mans_trans; [by eapply finish_mans|by apply IH].
Qed.

(** The sequential path is the parallel one. *)
Lemma collide_one_eq sc t e q w0 w id k :
  mans w0 w → pairs_one G sc t e q w0 id = Ok k →
  collide_one G sc t e q w id = fold_w G (finish_one G) w k.
Proof.
  intros Hm. unfold pairs_one, collide_one. destruct (get_node t id) as [n| | |]; try done. cbn [mbind res_bind].
  destruct (tn_c2 n) as [o|]; try done. cbn [opt_res mbind res_bind].
  assert (b_dis G w = b_dis G w0) as -> by (rewrite Hm; done).
  assert (b_aabb G w = b_aabb G w0) as -> by (rewrite Hm; done).
  destruct (sc e o); cbn [andb]; [|by intros [= <-]].
  destruct (bool_decide (o ∈ b_dis G w0)); cbn [negb].
  { intros [= <-]. rewrite andb_false_r. done. }
  rewrite andb_true_r. destruct (b_aabb G w0 !! o) as [b|]; try done. cbn [opt_res mbind res_bind].
  destruct (touch G q b).
  - intros [= <-]. rewrite fold_w_cons. unfold finish_one. cbn [fst snd].
    destruct (mm_contains (b_man G w) e o); cbn [negb mbind res_bind]; [done|].
    by destruct (make_manifold G w e o).
  - intros [= <-]. by destruct (mm_contains _ _ _).
Qed.

Lemma collide_list_eq sc t e q w0 l : ∀ w ps,
  mans w0 w → concat_res (map (pairs_one G sc t e q w0) l) = Ok ps →
  fold_w G (collide_one G sc t e q) w l = fold_w G (finish_one G) w ps.
Proof.
  induction l as [|id l IH]; intros w ps Hm; cbn [map concat_res foldr].
  - by intros [= <-].
  - intros (k & Ek & (r & Er & [= <-])%bind_ok)%bind_ok. rewrite fold_w_cons, fold_w_app.
    rewrite (collide_one_eq sc t e q w0 w id k Hm Ek).
    destruct (fold_w G (finish_one G) w k) as [w1| | |] eqn:E1; try done. cbn [mbind res_bind].
    apply IH; [|exact Er]. eapply mans_trans; [done|by eapply finish_fold_mans].
Qed.

Lemma collide_tree_eq sc p e q w0 w ps :
  mans w0 w → pairs_tree G sc p e q w0 = Ok ps →
  collide_tree G sc p e q w = fold_w G (finish_one G) w ps.
Proof.
  intros Hm. unfold pairs_tree, collide_tree. rewrite (mans_tree w0 w p Hm).
  destruct (traverse_tree _ _) as [l| | |]; try done. cbn [mbind res_bind]. by apply collide_list_eq.
Qed.

Lemma collide_seq_eq sc w0 w e ps :
  mans w0 w → pairs_of G sc w0 e = Ok ps → collide_seq G sc w e = fold_w G (finish_one G) w ps.
Proof.
  intros Hm. unfold pairs_of, collide_seq. assert (b_aabb G w = b_aabb G w0) as -> by (rewrite Hm; done).
  destruct (b_aabb G w0 !! e) as [b|]; try done. cbn [opt_res mbind res_bind].
  intros (p1 & E1 & (p2 & E2 & [= <-])%bind_ok)%bind_ok. rewrite fold_w_app.
  rewrite (collide_tree_eq sc true e (off_box G b) w0 w p1 Hm E1).
  destruct (fold_w G (finish_one G) w p1) as [w1| | |] eqn:F1; try done. cbn [mbind res_bind].
  apply (collide_tree_eq sc false e _ w0); [|done]. eapply mans_trans; [done|by eapply finish_fold_mans].
Qed.

Lemma collide_all_eq sc w0 l : ∀ w ps,
  mans w0 w → concat_res (map (pairs_of G sc w0) l) = Ok ps →
  fold_w G (collide_seq G sc) w l = fold_w G (finish_one G) w ps.
Proof.
  induction l as [|e l IH]; intros w ps Hm; cbn [map concat_res foldr].
  - by intros [= <-].
  - intros (k & Ek & (r & Er & [= <-])%bind_ok)%bind_ok. rewrite fold_w_cons, fold_w_app.
    rewrite (collide_seq_eq sc w0 w e k Hm Ek).
    destruct (fold_w G (finish_one G) w k) as [w1| | |] eqn:E1; try done. cbn [mbind res_bind].
    apply IH; [|exact Er]. eapply mans_trans; [done|by eapply finish_fold_mans].
Qed.

Lemma contains_joined w M st a b : binv G w M st → mm_contains (b_man G w) a b = true ↔ joined G w a b.
Proof.
  intros I. unfold mm_contains, joined. rewrite bool_decide_eq_true. pose proof (mr_pair _ _ (bi_man _ _ _ _ I) a b) as H.
  split; intros [m Hm]; exists m; by apply H.
Qed.

Lemma make_inv w M st a b :
  binv G w M st → a ∈ b_proc G w → is_Some (b_aabb G w !! a) → is_Some (b_aabb G w !! b) → ¬ joined G w a b →
  ∃ w', make_manifold G w a b = Ok w' ∧ binv G w' M st ∧
    mm_body (b_man G w') = <[b_next G w := (a, b)]> (mm_body (b_man G w)) ∧ b_next G w' = S (b_next G w).
Proof.
  intros I Hp Ha Hb Hj. pose proof I as [It Il Ir Ia Ind In Ilt Im Ib Ik Id].
  assert (Hfresh : mm_body (b_man G w) !! b_next G w = None).
  { destruct (mm_body (b_man G w) !! b_next G w) as [[x y]|] eqn:E; [|done].
    destruct (Ib _ _ _ E) as (_ & _ & Hv & _). apply Ilt in Hv. lia. }
  destruct (mstep_sim _ _ (MCreate (b_next G w) a b) (<[b_next G w := (a, b)]> (mm_body (b_man G w))) Im) as (c & Hc & Hrel).
  { simpl. rewrite decide_True; [done|]. split; [done|]. intros m [x y] Hm [E|E]; apply Hj; exists m; cbn in E;
    injection E as -> ->; auto. }
  unfold make_manifold, new_ent. cbn [b_valid b_proc b_man set_next set_ents].
  destruct (Ia a Ha) as [Hav _]. destruct (Ia b Hb) as [Hbv _].
  rewrite (bool_decide_eq_true_2 (a ∈ {[b_next G w]} ∪ b_valid G w)) by set_solver.
  rewrite (bool_decide_eq_true_2 (b ∈ {[b_next G w]} ∪ b_valid G w)) by set_solver.
  rewrite (bool_decide_eq_true_2 (a ∈ b_proc G w)) by done. cbn [andb orb assert_ mbind res_bind].
  cbn [mstep] in Hc. rewrite Hc. cbn [mbind res_bind]. eexists. split; [done|].
  assert (Hbody : mm_body c = <[b_next G w:=(a, b)]> (mm_body (b_man G w))) by apply (mr_body _ _ Hrel).
  split; [|done]. split; cbn; try done.
  - intros e He. destruct (Ia e He). split; [set_solver|done].
  - intros e He. destruct (In e He). split; [lia|done].
  - intros e [->%elem_of_singleton|He]%elem_of_union; [lia|]. apply Ilt in He. lia.
  - by rewrite Hbody.
  - rewrite Hbody. intros m x y Hm. destruct (decide (b_next G w = m)) as [<-|Hne].
    + rewrite lookup_insert in Hm. injection Hm as <- <-. split_and!; try done; [set_solver|].
      destruct (b_aabb G w !! b_next G w) eqn:E; [|done]. destruct (Ia (b_next G w)) as [Hv _]; [by eexists|].
      apply Ilt in Hv. lia.
    + rewrite lookup_insert_ne in Hm by done. destruct (Ib _ _ _ Hm) as (?&?&?&?). split_and!; try done. set_solver.
Qed.

Lemma finish_fold_inv l : ∀ w M st,
  binv G w M st →
  (∀ a b, (a, b) ∈ l → a ∈ b_proc G w ∧ is_Some (b_aabb G w !! a) ∧ is_Some (b_aabb G w !! b)) →
  ∃ w', fold_w G (finish_one G) w l = Ok w' ∧ binv G w' M st ∧
    (∀ m p, mm_body (b_man G w) !! m = Some p → mm_body (b_man G w') !! m = Some p) ∧
    (∀ m a b, mm_body (b_man G w') !! m = Some (a, b) →
       mm_body (b_man G w) !! m = Some (a, b) ∨ (b_next G w ≤ m ∧ (a, b) ∈ l ∧ ¬ joined G w a b)) ∧
    (∀ a b, (a, b) ∈ l → joined G w' a b).
Proof.
  induction l as [|[a b] l IH]; intros w M st I Hl.
  { exists w. split_and!; try done; [auto|]. intros a b Hab. by apply elem_of_nil in Hab. }
  destruct (Hl a b) as (Hp & Ha & Hb); [left|]. rewrite fold_w_cons.
  change (finish_one G w (a, b)) with (if mm_contains (b_man G w) a b then Ok w else make_manifold G w a b).
  destruct (mm_contains (b_man G w) a b) eqn:Ec.
  - apply (contains_joined w M st) in Ec; [|done]. cbn [mbind res_bind].
    destruct (IH w M st I) as (w2 & E2 & I2 & K2 & N2 & J2); [intros; apply Hl; by right|].
    exists w2. split_and!; try done.
    + intros m x y Hm. destruct (N2 m x y Hm) as [?|(? & ? & ?)]; [by left|]. right. split_and!; try done. by right.
    + intros x y [[= -> ->]|Hxy]%elem_of_cons; [|by apply J2].
      destruct Ec as [m [Hm|Hm]]; exists m; [left|right]; by apply K2.
  - assert (Hj : ¬ joined G w a b).
    { intros Hj. apply (contains_joined w M st) in Hj; [|done]. congruence. }
    destruct (make_inv w M st a b I Hp Ha Hb Hj) as (w1 & E1 & I1 & B1 & X1). rewrite E1. cbn [mbind res_bind].
    pose proof (make_mans _ _ _ _ E1) as Hm1.
    destruct (IH w1 M st I1) as (w2 & E2 & I2 & K2 & N2 & J2).
    { intros x y Hxy. rewrite Hm1. cbn. apply Hl. by right. }
    exists w2. split_and!; try done.
    + intros m p Hm. apply K2. rewrite B1, lookup_insert_ne; [done|]. intros <-. destruct p as [x y].
      destruct (bi_body _ _ _ _ I _ _ _ Hm) as (_ & _ & Hv & _). apply (bi_lt _ _ _ _ I) in Hv. lia.
    + intros m x y Hm. destruct (N2 m x y Hm) as [Hm'|(? & ? & Hn)].
      * rewrite B1 in Hm'. destruct (decide (b_next G w = m)) as [<-|Hne].
        -- rewrite lookup_insert in Hm'. injection Hm' as <- <-. right. split_and!; [done|left|done].
        -- rewrite lookup_insert_ne in Hm' by done. by left.
      * right. split_and!; [lia|by right|]. intros [m' Hm']. apply Hn. exists m'. rewrite B1.
        assert (b_next G w ≠ m').
        { intros <-. destruct Hm' as [Hm'|Hm']; destruct (bi_body _ _ _ _ I _ _ _ Hm') as (_ & _ & Hv & _);
          apply (bi_lt _ _ _ _ I) in Hv; lia. }
        by rewrite lookup_insert_ne.
    + intros x y [[= -> ->]|Hxy]%elem_of_cons; [|by apply J2].
      exists (b_next G w). left. apply K2. by rewrite B1, lookup_insert.
Qed.
End proofs.
