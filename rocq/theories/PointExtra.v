(** Further facts about contact points: persistent contacts, nearest points,
    slot quality. *)
From Verif Require Import Outcome BoxModel PointModel PointSpec PointProofs PointSlot PointProcess PointFinish PointUpdate.

Section extra.
Context {V Sc X : Type} (G : geo V Sc).
Notation rpoint := (rpoint V X).
Notation entry := (nat * (rpoint * nat))%type.

Lemma a_process_persistent (nz : rpoint → bool) (dflt : rpoint) (env : penv V Sc X) (l : list entry) (result : list rpoint) :
  NoDup l.*1 → length result ≤ max_contacts →
  (∀ j, j < length result → ∃ x p k, (x, (p, k)) ∈ l ∧ nearest G env p result = j) →
  ∃ l' dels, a_process G dflt env l result = Ok (l', [], dels) ∧
    ∀ j q, result !! j = Some q → ∃ x p k, (x, (p, k)) ∈ l ∧ nearest G env p result = j ∧ (x, (q, S k)) ∈ del_ids dels l'.
Proof.
  intros Hnd Hr Hall. unfold a_process.
  destruct (a_walk G env result l (replicate max_contacts false)) as [[l1 mg] rm] eqn:Ew.
  destruct (a_walk_src G nz dflt _ _ _ _ _ _ _ Ew Hnd) as (src & _ & W2 & W3 & _ & _ & _ & _ & W8 & W9).
  assert (Hmg : ∀ j, j < length result → mg !! j = Some true).
  { intros j Hj. destruct (Hall j Hj) as (x & p & k & Hx & <-). eapply W9; [done|done|]. rewrite replicate_length. lia. }
  assert (Hf : forallb id (take (length result) mg) = true).
  { apply forallb_forall. intros b Hb. apply elem_of_list_In, elem_of_list_lookup in Hb as (j & Hj).
    apply lookup_take_Some in Hj as [Hj Hlt]. rewrite Hmg in Hj by done. by injection Hj as <-. }
  rewrite Hf. exists l1, rm. split; [done|]. intros j q Hq.
  destruct (W2 j (Hmg j ltac:(by eapply lookup_lt_Some))) as [H|(x & Hx & Hs)].
  { apply lookup_replicate in H as [? _]. done. }
  apply elem_of_list_fmap in Hx as ([x0 [p k]] & E & Hx). simpl in E. subst x0. destruct (W3 _ _ _ Hx) as (p' & Hx' & H). rewrite Hs in H.
  destruct H as (Hp' & _ & _ & Hrm). assert (p' = q) as -> by congruence. exists x, p, k. split_and!; [done|symmetry; by eapply W8|].
  rewrite del_ids_filter. by apply elem_of_list_filter.
Qed.

(** ** Nearest *)
Lemma find_nearest_spec leb (p : rpoint) (result : list rpoint) : total_order leb (g_lt G) →
  let n := find_nearest G p result in
  let near (v : Sc) (q : rpoint) := v = g_dist G (rp_a q) (rp_a p) ∨ v = g_dist G (rp_b q) (rp_b p) in
  (n < length result ∧ ∃ q v, result !! n = Some q ∧ near v q ∧ g_lt G v (g_cache G) = true ∧
     ∀ q' v', q' ∈ result → near v' q' → leb v v' = true) ∨
  (n = length result ∧ ∀ q' v', q' ∈ result → near v' q' → leb (g_cache G) v' = true).
Proof.
  intros HT. pose proof (to_lt _ _ HT) as Hlt. pose proof (to_total _ _ HT) as Htot. pose proof (to_trans _ _ HT) as Htr.
  assert (Hrefl : ∀ x, leb x x = true) by (intros x; by destruct (Htot x x)).
  assert (Hltle : ∀ x y, g_lt G x y = true → leb x y = true).
  { intros x y H. rewrite Hlt in H. apply negb_true_iff in H. destruct (Htot x y); congruence. }
  assert (Hnlt : ∀ x y, g_lt G x y = false → leb y x = true).
  { intros x y H. rewrite Hlt in H. by apply negb_false_iff in H. }
  assert (Hlt_le : ∀ x y z, g_lt G x y = true → leb y z = true → g_lt G x z = true).
  { intros x y z H1 H2. rewrite Hlt in H1 |- *. apply negb_true_iff in H1. apply negb_true_iff.
    destruct (leb z x) eqn:E; [|done]. rewrite (Htr _ _ _ H2 E) in H1. done. }
  intros n near.
  set (F := λ '(s, n, i) (q : rpoint),
     let dA := g_dist G (rp_a q) (rp_a p) in
     let dB := g_dist G (rp_b q) (rp_b p) in
     let '(s, n) := if g_lt G dA s then (dA, i) else (s, n) in
     let '(s, n) := if g_lt G dB s then (dB, i) else (s, n) in
     (s, n, S i)).
  assert (HH : ∀ todo pre s k, result = pre ++ todo →
    (∀ q' v', q' ∈ pre → near v' q' → leb s v' = true) →
    ((s = g_cache G ∧ k = length result) ∨ (∃ q, pre !! k = Some q ∧ near s q ∧ g_lt G s (g_cache G) = true)) →
    match foldl F (s, k, length pre) todo with (s', k', _) =>
      (∀ q' v', q' ∈ result → near v' q' → leb s' v' = true) ∧
      ((s' = g_cache G ∧ k' = length result) ∨ (∃ q, result !! k' = Some q ∧ near s' q ∧ g_lt G s' (g_cache G) = true)) end).
  { induction todo as [|q todo IH]; intros pre s k Hres Hmin Hk.
    - simpl. rewrite app_nil_r in Hres. by rewrite Hres in *.
    - cbn [foldl]. destruct (F (s, k, length pre) q) as [[s' k'] i'] eqn:EF.
      unfold F in EF. set (dA := g_dist G (rp_a q) (rp_a p)) in *. set (dB := g_dist G (rp_b q) (rp_b p)) in *.
      assert (Hi : i' = length (pre ++ [q]) ∧ leb s' s = true ∧ leb s' dA = true ∧ leb s' dB = true ∧
        ((s' = s ∧ k' = k) ∨ (k' = length pre ∧ near s' q ∧ g_lt G s' s = true))).
      { rewrite app_length. simpl. unfold near. fold dA dB.
        destruct (g_lt G dA s) eqn:E1; [destruct (g_lt G dB dA) eqn:E2|destruct (g_lt G dB s) eqn:E2]; injection EF as <- <- <-;
          (split; [lia|]); split_and!; eauto; right; split_and!; eauto. }
      destruct Hi as (-> & H1 & H2 & H3 & H4). apply (IH (pre ++ [q])).
      + by rewrite Hres, <- (assoc_L (++)).
      + intros q' v' [Hq'|Hq']%elem_of_app Hn; [by eapply Htr; [exact H1|eapply Hmin]|].
        apply elem_of_list_singleton in Hq' as ->. destruct Hn as [->| ->]; done.
      + destruct H4 as [[-> ->]|(-> & Hn & Hl)].
        * destruct Hk as [?|(q0 & ? & ?)]; [by left|]. right. exists q0. split; [by apply lookup_app_l_Some|done].
        * right. exists q. split_and!; [by rewrite lookup_app_r, Nat.sub_diag|done|].
          destruct Hk as [[-> _]|(q0 & _ & _ & Hk)]; [done|]. eapply Hlt_le; [exact Hl|]. by apply Hltle. }
  specialize (HH result [] (g_cache G) (length result) eq_refl ltac:(by intros ? ? ?%elem_of_nil) ltac:(by left)).
  unfold n, find_nearest. fold F. simpl in HH. destruct (foldl F (g_cache G, length result, 0) result) as [[s' k'] i'].
  destruct HH as [H1 [[-> ->]|(q & Hq & Hn & Hc)]]; simpl; [right; done|left].
  split; [by eapply lookup_lt_Some|]. exists q, s'. split_and!; done.
Qed.

(** ** Four points: the best score *)
Lemma insertion_best leb p0 p1 p2 p3 p t i n : total_order leb (g_lt G) →
  insertion_point_index G [p0; p1; p2; p3] 4 p = Ok (t, Some i, n) →
  let scores := [g_score G p p1 p2 p3; g_score G p p0 p2 p3; g_score G p p0 p1 p3; g_score G p p0 p1 p2] in
  let cur := g_score G p0 p1 p2 p3 in
  if decide (t = INone) then ∀ s, s ∈ scores → leb s cur = true
  else ∃ b, scores !! i = Some b ∧ g_lt G cur b = true ∧ ∀ s, s ∈ scores → leb s b = true.
Proof.
  intros HT H. pose proof (to_lt _ _ HT) as Hlt. pose proof (to_total _ _ HT) as Htot. pose proof (to_trans _ _ HT) as Htr.
  assert (Hrefl : ∀ x, leb x x = true) by (intros x; by destruct (Htot x x)).
  cbn zeta. unfold insertion_point_index in H. cbn [length bool_decide decide Nat.leb assert_ mbind res_bind lookup list_lookup opt_res] in H.
  set (scores := [g_score G p p1 p2 p3; g_score G p p0 p2 p3; g_score G p p0 p1 p3; g_score G p p0 p1 p2]) in *.
  set (cur := g_score G p0 p1 p2 p3) in *.
  assert (Hle : bool_decide (4 ≤ 4) = true) by done. rewrite Hle in H. cbn [mbind res_bind assert_] in H.
  destruct (best (λ a b : Sc, g_lt G b a) cur scores) as [k|] eqn:Eb.
  - destruct (best_max (λ a b : Sc, g_lt G b a) cur scores k) as (x & Hx & Hgt & Hmax); [..|exact Eb|].
    { intros a b c H1 H2. cbn beta in *. rewrite Hlt in H1, H2 |- *. apply negb_true_iff in H1, H2. apply negb_true_iff.
      destruct (leb a c) eqn:E; [|done]. destruct (Htot b c) as [Hbc|Hcb]; [congruence|]. rewrite (Htr a c b E Hcb) in H1. done. }
    { intros a b c H1 H2. cbn beta in *. rewrite Hlt in H1, H2 |- *. apply negb_false_iff in H1, H2. apply negb_false_iff. eauto. }
    { intros a. cbn beta. rewrite Hlt. by rewrite Hrefl. }
    assert (Hk : k < 4) by (by apply lookup_lt_Some in Hx). rewrite decide_True in H by (exact Hk).
    apply bind_ok in H as (q & _ & H).
    assert (t ≠ INone ∧ i = k) as [Ht ->] by (destruct (g_lt G (g_dist G q p) (g_sim G)); simplify_eq; done).
    rewrite decide_False by done. exists x. split_and!; [done|done|]. intros s Hs. specialize (Hmax s Hs). simpl in Hmax.
    rewrite Hlt in Hmax. by apply negb_false_iff in Hmax.
  - simplify_eq. rewrite decide_True by done. intros s Hs. pose proof (proj1 (best_none _ _ _) Eb s Hs) as Hm. simpl in Hm.
    rewrite Hlt in Hm. by apply negb_false_iff in Hm.
Qed.

(** ** Two points and a third on their line: the longest segment *)
Lemma insertion_segment leb p0 p1 q2 q3 p t i n : total_order leb (g_lt G) →
  g_lt G (g_eps G) (g_cross G p p0 p1) = false →
  insertion_point_index G [p0; p1; q2; q3] 2 p = Ok (t, Some i, n) →
  let d0 := g_dist G p p0 in let d1 := g_dist G p p1 in let dc := g_dist G p0 p1 in
  n = 2 ∧ (t = INone ∧ (leb d0 dc = true ∨ leb d0 d1 = true) ∧ (leb d1 dc = true ∨ leb d1 d0 = true) ∨
           t ≠ INone ∧ i = 1 ∧ leb dc d0 = true ∧ leb d1 d0 = true ∨
           t ≠ INone ∧ i = 0 ∧ leb dc d1 = true ∧ leb d0 d1 = true).
Proof.
  intros HT Hc H. pose proof (to_lt _ _ HT) as Hlt. pose proof (to_total _ _ HT) as Htot.
  assert (Hgt : ∀ a b, g_lt G a b = true → leb a b = true).
  { intros a b E. rewrite Hlt in E. apply negb_true_iff in E. destruct (Htot a b); congruence. }
  assert (Hng : ∀ a b, g_lt G a b = false → leb b a = true).
  { intros a b E. rewrite Hlt in E. by apply negb_false_iff in E. }
  unfold insertion_point_index in H. cbn zeta. cbn [length] in H.
  assert (Hle : bool_decide (2 ≤ 4) = true) by done. rewrite Hle in H. cbn [mbind res_bind assert_ opt_res lookup list_lookup] in H. rewrite Hc in H.
  set (d0 := g_dist G p p0) in *. set (d1 := g_dist G p p1) in *. set (dc := g_dist G p0 p1) in *.
  destruct (g_lt G dc d0) eqn:E1, (g_lt G d1 d0) eqn:E2, (g_lt G dc d1) eqn:E3, (g_lt G d0 d1) eqn:E4; simpl in H; simplify_eq; split; try done;
    try (left; split_and!; eauto; fail);
    try (right; left; split_and!; eauto; case_match; done);
    try (right; right; split_and!; eauto; case_match; done).
Qed.
End extra.
