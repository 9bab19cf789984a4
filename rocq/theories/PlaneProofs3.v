(** Proofs about convex polygons of the plane. *)
From Verif Require Import Outcome BoxModel GeoModel RotSpec RotProofs NearModel PlaneModel PlaneSpec PlaneProofs.
From Coq Require Import Reals Lra Psatz.
Local Open Scope R_scope.

Lemma outward_left v0 v1 p : dot2 (sub2 p v0) (outward (sub2 v1 v0)) = - left_of v0 v1 p.
Proof. unfold dot2, outward, neg2, orth2, sub2, left_of. simpl. ring. Qed.
Lemma along_ahead v0 v1 p : dot2 (sub2 p v0) (sub2 v1 v0) = ahead v0 v1 p.
Proof. unfold dot2, sub2, ahead. simpl. ring. Qed.
(** how far a point is past the end of an edge *)
Definition past (v0 v1 p : v2) : R := dot2 (sub2 p v1) (sub2 v1 v0).
Definition edge_sq (v0 v1 : v2) : R := dist_sq v1 v0.
Lemma past_ahead v0 v1 p : past v0 v1 p = ahead v0 v1 p - edge_sq v0 v1.
Proof. unfold past, ahead, edge_sq, dist_sq, dot2, sub2. simpl. ring. Qed.
Lemma edge_sq_nonneg a b : 0 <= edge_sq a b.
Proof. unfold edge_sq, dist_sq. apply Rplus_le_le_0_compat; apply Rle_0_sqr. Qed.
Lemma past_dist v0 v1 p : 2 * past v0 v1 p = dist_sq p v0 - dist_sq p v1 - edge_sq v0 v1.
Proof. unfold past, edge_sq, dist_sq, dot2, sub2. simpl. ring. Qed.
Lemma ahead_dist v0 v1 p : 2 * ahead v0 v1 p = dist_sq p v0 + edge_sq v0 v1 - dist_sq p v1.
Proof. unfold ahead, edge_sq, dist_sq. ring. Qed.
Lemma turn_edge a b c : 0 < left_of a b c → 0 < edge_sq a b ∧ 0 < edge_sq b c.
Proof.
  intros H. split.
  - destruct (edge_sq_nonneg a b) as [|E]; [done|]. unfold edge_sq, dist_sq, left_of in *.
    symmetry in E. apply Rplus_sqr_eq_0 in E as [E1 E2]. rewrite E1, E2 in H. lra.
  - destruct (edge_sq_nonneg b c) as [|E]; [done|]. unfold edge_sq, dist_sq in *.
    symmetry in E. apply Rplus_sqr_eq_0 in E as [E1 E2]. unfold left_of in H.
    replace (uy c) with (uy b) in H by lra. replace (ux c) with (ux b) in H by lra. lra.
Qed.

(** * Two nearest points *)
Lemma nearest_edge c0 c1 p x t : 0 < edge_sq c0 c1 →
  t = ahead c0 c1 p / edge_sq c0 c1 → left_of c0 c1 p <= 0 → 0 <= left_of c0 c1 x →
  dist_sq p (lerp2 c0 c1 t) <= dist_sq p x.
Proof.
  intros He Et Hp Hx. set (q := lerp2 c0 c1 t).
  assert (Ht : t * edge_sq c0 c1 = ahead c0 c1 p) by (rewrite Et; field; lra).
  assert (Q1 : (ux p - ux q) * (ux c1 - ux c0) + (uy p - uy q) * (uy c1 - uy c0) = 0).
  { unfold q, lerp2, add2, scl2. simpl. unfold ahead, edge_sq, dist_sq in *. lra. }
  assert (Q2 : (ux c1 - ux c0) * (uy p - uy q) - (uy c1 - uy c0) * (ux p - ux q) = left_of c0 c1 p).
  { unfold q, lerp2, add2, scl2, left_of. simpl. ring. }
  assert (Q3 : (ux c1 - ux c0) * (uy q - uy x) - (uy c1 - uy c0) * (ux q - ux x) = - left_of c0 c1 x).
  { unfold q, lerp2, add2, scl2, left_of. simpl. ring. }
  clearbody q. unfold edge_sq, dist_sq in *.
  set (e := ux c1 - ux c0) in *. set (f := uy c1 - uy c0) in *.
  set (a := ux p - ux q) in *. set (b := uy p - uy q) in *.
  set (c := ux q - ux x) in *. set (d := uy q - uy x) in *.
  replace (ux p - ux x) with (a + c) by (unfold a, c; ring).
  replace (uy p - uy x) with (b + d) by (unfold b, d; ring).
  assert (0 <= (a * c + b * d) * (e * e + f * f)).
  { replace ((a * c + b * d) * (e * e + f * f)) with ((a * e + b * f) * (c * e + d * f) + (e * b - f * a) * (e * d - f * c)) by ring.
    rewrite Q1, Q2, Q3. nra. }
  assert (0 <= a * c + b * d). { apply (Rmult_le_reg_r (e * e + f * f)); [done|lra]. }
  nra.
Qed.
Lemma nearest_corner c0 c1 c2 p x : 0 < left_of c0 c1 c2 →
  0 <= past c0 c1 p → ahead c1 c2 p <= 0 → 0 <= left_of c0 c1 x → 0 <= left_of c1 c2 x →
  dist_sq p c1 <= dist_sq p x.
Proof.
  intros HP Hp1 Hp2 Hx1 Hx2. unfold past, dot2, sub2, ahead, dist_sq, left_of in *. simpl in *.
  set (a := ux p - ux c1) in *. set (b := uy p - uy c1) in *.
  set (c := ux x - ux c1). set (d := uy x - uy c1).
  set (e := ux c1 - ux c0) in *. set (f := uy c1 - uy c0) in *.
  set (g := ux c2 - ux c1) in *. set (h := uy c2 - uy c1) in *.
  replace (uy c2 - uy c0) with (h + f) in HP by (unfold h, f; ring).
  replace (ux c2 - ux c0) with (g + e) in HP by (unfold g, e; ring).
  replace (uy x - uy c0) with (d + f) in Hx1 by (unfold d, f; ring).
  replace (ux x - ux c0) with (c + e) in Hx1 by (unfold c, e; ring).
  fold c d in Hx2.
  replace (ux p - ux x) with (a - c) by (unfold a, c; ring).
  replace (uy p - uy x) with (b - d) by (unfold b, d; ring).
  assert ((a * c + b * d) * (e * h - f * g) <= 0).
  { replace ((a * c + b * d) * (e * h - f * g))
      with (- ((g * d - h * c) * (a * e + b * f)) + (e * d - f * c) * (a * g + b * h)) by ring.
    assert (0 <= (g * d - h * c) * (a * e + b * f)) by (apply Rmult_le_pos; lra).
    assert (0 <= (e * d - f * c) * - (a * g + b * h)) by (apply Rmult_le_pos; lra). lra. }
  assert (a * c + b * d <= 0). { apply (Rmult_le_reg_r (e * h - f * g)); lra. }
  nra.
Qed.

(** * The loop *)
Definition valid_sel (vs : list v2) (ix : list nat) : Prop := Forall (λ i, (i < length vs)%nat) ix.
Lemma sel_length vs ix : length (selected vs ix) = length ix.
Proof. apply map_length. Qed.
Lemma sel_at vs ix i : valid_sel vs ix → (i < length ix)%nat →
  ∃ k, at_ ix i = Ok k ∧ at_ vs k = Ok (nth i (selected vs ix) (V2 0 0)).
Proof.
  intros Hv Hi. destruct (lookup_lt_is_Some_2 ix i Hi) as [k Hk]. exists k. unfold at_. rewrite Hk. split; [done|].
  assert (Hk' : (k < length vs)%nat). { unfold valid_sel in Hv. rewrite Forall_forall in Hv. apply Hv. by eapply elem_of_list_lookup_2. }
  destruct (lookup_lt_is_Some_2 vs k Hk') as [v E]. rewrite E. simpl. f_equal.
  symmetry. apply nth_lookup_Some. change (((λ i, nth i vs (V2 0 0)) <$> ix) !! i = Some v).
  rewrite list_lookup_fmap, Hk. simpl. f_equal. by apply nth_lookup_Some.
Qed.
Lemma corner_at vs ix i : valid_sel vs ix → (0 < length ix)%nat →
  ∃ k, at_ ix (i mod length ix) = Ok k ∧ at_ vs k = Ok (corner (selected vs ix) i).
Proof.
  intros Hv Hn. unfold corner. rewrite sel_length. apply sel_at; [done|]. apply Nat.mod_upper_bound. lia.
Qed.
Lemma corner_per l i : corner l (i + length l) = corner l i.
Proof.
  unfold corner. destruct l as [|a l]; [by rewrite !nth_overflow by (simpl; lia)|]. f_equal.
  replace (i + length (a :: l))%nat with (i + 1 * length (a :: l))%nat by lia. apply Nat.mod_add. done.
Qed.
Lemma corner_mod l i : (0 < length l)%nat → corner l (i mod length l) = corner l i ∧ corner l (S (i mod length l)) = corner l (S i) ∧ corner l (S (S (i mod length l))) = corner l (S (S i)).
Proof.
  intros Hn. unfold corner. set (n := length l) in *.
  assert (n ≠ 0)%nat by lia.
  split_and!; f_equal.
  - by rewrite Nat.mod_mod.
  - rewrite <- (Nat.add_1_r (i mod n)), <- (Nat.add_1_r i). by apply Nat.add_mod_idemp_l.
  - replace (S (S (i mod n))) with (i mod n + 2)%nat by lia. replace (S (S i)) with (i + 2)%nat by lia. by apply Nat.add_mod_idemp_l.
Qed.

(** An edge that decides *)
Definition verdict (l : list v2) (p : v2) (i : nat) : option v2 :=
  let c0 := corner l i in let c1 := corner l (S i) in let c2 := corner l (S (S i)) in
  if rltb 0 (left_of c0 c1 p) then None
  else if rltb 0 (ahead c0 c1 p) then
    if rltb (past c0 c1 p) 0 then Some (lerp2 c0 c1 (ahead c0 c1 p / edge_sq c0 c1))
    else if rltb (ahead c1 c2 p) 0 then Some c1 else None
  else None.
Fixpoint first_verdict (l : list v2) (p : v2) (i n : nat) : option v2 :=
  match n with
  | O => None
  | S n => match verdict l p i with Some q => Some q | None => first_verdict l p (S i) n end
  end.
Lemma closest_loop_eq vs ix p i n : valid_sel vs ix → (i + n <= length ix)%nat →
  (∀ i, 0 < edge_sq (corner (selected vs ix) i) (corner (selected vs ix) (S i))) →
  closest_loop vs ix p i n = Ok (first_verdict (selected vs ix) p i n).
Proof.
  intros Hv. revert i. induction n as [|n IH]; intros i Hi He; [done|].
  simpl. assert (Hn : (0 < length ix)%nat) by lia.
  destruct (corner_at vs ix i Hv Hn) as (k0 & A0 & B0). rewrite Nat.mod_small in A0 by lia.
  destruct (corner_at vs ix (S i) Hv Hn) as (k1 & A1 & B1).
  destruct (corner_at vs ix (S (S i)) Hv Hn) as (k2 & A2 & B2).
  replace (i + 1)%nat with (S i) by lia. replace (i + 2)%nat with (S (S i)) by lia.
  rewrite A0. simpl. rewrite A1. simpl. rewrite B0. simpl. rewrite B1. simpl.
  rewrite A2, outward_left, along_ahead. fold (past (corner (selected vs ix) i) (corner (selected vs ix) (S i)) p).
  unfold verdict. set (l := selected vs ix) in *.
  assert (IH' := IH (S i) ltac:(lia) He).
  destruct (rltb 0 (left_of (corner l i) (corner l (S i)) p)) eqn:L.
  { apply rltb_true in L. rewrite (proj2 (rltb_true _ 0)) by lra. done. }
  apply rltb_false in L. rewrite (proj2 (rltb_false _ 0)) by lra.
  destruct (rltb 0 (ahead _ _ p)); [|done].
  destruct (rltb (past _ _ p) 0).
  { unfold rdiv. assert (Ee : dot2 (sub2 (corner l (S i)) (corner l i)) (sub2 (corner l (S i)) (corner l i)) = edge_sq (corner l i) (corner l (S i))).
    { unfold dot2, sub2, edge_sq, dist_sq. simpl. ring. }
    rewrite Ee. specialize (He i). destruct Req_EM_T as [E|E]; [lra|done]. }
  simpl. rewrite B2. simpl. rewrite along_ahead. by destruct (rltb (ahead _ _ p) 0).
Qed.
Lemma first_verdict_some l p i n q : first_verdict l p i n = Some q → ∃ j, verdict l p j = Some q.
Proof.
  revert i. induction n as [|n IH]; intros i H; [done|]. simpl in H.
  destruct (verdict l p i) eqn:E; [|by eapply IH]. injection H as ->. eauto.
Qed.
Lemma first_verdict_none l p i n : first_verdict l p i n = None ↔ ∀ j, (i <= j < i + n)%nat → verdict l p j = None.
Proof.
  revert i. induction n as [|n IH]; intros i; simpl; [split; [lia|done]|].
  destruct (verdict l p i) eqn:E.
  - split; [done|]. intros H. rewrite H in E by lia. done.
  - rewrite IH. split; intros H j Hj; [|apply H; lia].
    destruct (decide (j = i)) as [->|]; [done|]. apply H. lia.
Qed.
Lemma verdict_all l p : (0 < length l)%nat → (∀ j, (j < length l)%nat → verdict l p j = None) → ∀ j, verdict l p j = None.
Proof.
  intros Hn H j. rewrite <- (H (j mod length l)) by (apply Nat.mod_upper_bound; lia).
  unfold verdict. destruct (corner_mod l j Hn) as (-> & -> & ->). done.
Qed.

Lemma closest_total vs ix p : valid_sel vs ix → convex (selected vs ix) →
  closest_point_convex_polygon vs ix p = Ok (first_verdict (selected vs ix) p 0 (length ix)).
Proof.
  intros Hv (Hn & Hc & Ht). apply closest_loop_eq; [done|lia|].
  intros i. by destruct (turn_edge _ _ _ (Ht i)).
Qed.
Lemma left_lerp a b c d t : left_of a b (lerp2 c d t) = (1 - t) * left_of a b c + t * left_of a b d.
Proof. unfold left_of, lerp2, add2, scl2. simpl. ring. Qed.

Lemma closest_nearest vs ix p q : valid_sel vs ix → convex (selected vs ix) →
  closest_point_convex_polygon vs ix p = Ok (Some q) →
  in_polygon (selected vs ix) q ∧ ∀ x, in_polygon (selected vs ix) x → dist_sq p q <= dist_sq p x.
Proof.
  intros Hv HC H. rewrite closest_total in H by done. injection H as H.
  destruct HC as (Hn & Hc & Ht). set (l := selected vs ix) in *. clearbody l.
  apply first_verdict_some in H as [j H]. unfold verdict in H.
  destruct (turn_edge _ _ _ (Ht j)) as [He _].
  destruct (rltb 0 (left_of _ _ p)) eqn:L; [done|]. apply rltb_false in L.
  destruct (rltb 0 (ahead (corner l j) (corner l (S j)) p)) eqn:A; [|done]. apply rltb_true in A.
  destruct (rltb (past _ _ p) 0) eqn:P.
  - apply rltb_true in P. injection H as <-. rewrite past_ahead in P.
    set (t := ahead (corner l j) (corner l (S j)) p / edge_sq (corner l j) (corner l (S j))).
    assert (Ht' : t * edge_sq (corner l j) (corner l (S j)) = ahead (corner l j) (corner l (S j)) p) by (unfold t; field; lra).
    assert (0 <= t <= 1) by (split; nra).
    split.
    + intros i. rewrite left_lerp. pose proof (Hc j i). pose proof (Hc (S j) i). nra.
    + intros x Hx. by apply nearest_edge; [..|apply Hx].
  - apply rltb_false in P. destruct (rltb (ahead (corner l (S j)) (corner l (S (S j))) p) 0) eqn:B; [|done].
    apply rltb_true in B. injection H as <-. split; [apply Hc|]. intros x Hx.
    apply (nearest_corner (corner l j) (corner l (S j)) (corner l (S (S j)))); auto; lra.
Qed.

Lemma closest_inside vs ix p : valid_sel vs ix → convex (selected vs ix) →
  inside_polygon (selected vs ix) p → closest_point_convex_polygon vs ix p = Ok None.
Proof.
  intros Hv HC Hp. rewrite closest_total by done. f_equal. apply first_verdict_none. intros j _.
  unfold verdict. by rewrite (proj2 (rltb_true _ _) (Hp j)).
Qed.

(** * When it finds nothing *)
Lemma turn_back c0 c1 c2 p : left_of c0 c1 p * edge_sq c1 c2 =
  left_of c0 c1 c2 * ahead c1 c2 p - ahead c1 c2 c0 * left_of c1 c2 p.
Proof. unfold left_of, edge_sq, dist_sq, ahead. ring. Qed.
Lemma turn_on c0 c1 c2 p : left_of c1 c2 p * edge_sq c0 c1 =
  - left_of c0 c1 c2 * past c0 c1 p - ahead c1 c2 c0 * left_of c0 c1 p.
Proof. unfold left_of, edge_sq, dist_sq, ahead, past, dot2, sub2. simpl. ring. Qed.

Lemma closest_none vs ix p : valid_sel vs ix → convex (selected vs ix) → blunt (selected vs ix) →
  (∀ i, ahead (corner (selected vs ix) i) (corner (selected vs ix) (S i)) p ≠ 0) →
  closest_point_convex_polygon vs ix p = Ok None → inside_polygon (selected vs ix) p.
Proof.
  intros Hv HC HB HA H. rewrite closest_total in H by done. injection H as H.
  destruct HC as (Hn & Hc & Ht).
  assert (Hnone : ∀ j, verdict (selected vs ix) p j = None).
  { apply verdict_all; [lia|]. intros j Hj. eapply (proj1 (first_verdict_none _ _ _ _) H). rewrite sel_length in Hj. lia. }
  clear H. set (l := selected vs ix) in *. clearbody l.
  intros i0. destruct (Rlt_dec 0 (left_of (corner l i0) (corner l (S i0)) p)) as [|Hl]; [done|exfalso].
  apply Rnot_lt_le in Hl.
  set (L := λ i, left_of (corner l i) (corner l (S i)) p).
  set (A := λ i, ahead (corner l i) (corner l (S i)) p).
  set (D := λ i, dist_sq p (corner l i)).
  assert (Hcase : ∀ i, L i <= 0 → A i < 0 ∨ (0 < A i ∧ 0 <= past (corner l i) (corner l (S i)) p ∧ 0 < A (S i))).
  { intros i Hi. specialize (Hnone i). unfold verdict in Hnone. fold (L i) (A i) (A (S i)) in Hnone.
    pose proof (HA i) as HAi. pose proof (HA (S i)) as HAi'. fold (A i) in HAi. fold (A (S i)) in HAi'.
    rewrite (proj2 (rltb_false 0 (L i)) Hi) in Hnone.
    destruct (rltb 0 (A i)) eqn:E1; [|apply rltb_false in E1; left; lra]. apply rltb_true in E1.
    destruct (rltb (past _ _ p) 0) eqn:E2; [done|]. apply rltb_false in E2.
    destruct (rltb (A (S i)) 0) eqn:E3; [done|]. apply rltb_false in E3. right. split_and!; lra. }
  assert (HD : D (i0 + length l)%nat = D i0) by (unfold D; by rewrite corner_per).
  destruct (Hcase i0 Hl) as [Ha|(Ha & _)].
  - (* backwards *)
    assert (Hq : ∀ k, (k <= length l)%nat → L (i0 + (length l - k))%nat <= 0 ∧ A (i0 + (length l - k))%nat < 0).
    { intros k. induction k as [|k IH]; intros Hk.
      - rewrite Nat.sub_0_r. unfold L, A. rewrite <- Nat.add_succ_l, !corner_per. split; [apply Hl|apply Ha].
      - destruct IH as [IL IA]; [lia|].
        replace (i0 + (length l - k))%nat with (S (i0 + (length l - S k))) in IL, IA by lia.
        set (i := (i0 + (length l - S k))%nat) in *.
        destruct (turn_edge _ _ _ (Ht i)) as [_ He].
        assert (Li : L i <= 0).
        { pose proof (turn_back (corner l i) (corner l (S i)) (corner l (S (S i))) p) as E.
          fold (L i) (A (S i)) (L (S i)) in E. pose proof (HB i) as B. pose proof (Ht i) as T.
          apply Rnot_lt_le. intros Hp.
          assert (0 < L i * edge_sq (corner l (S i)) (corner l (S (S i)))) by (apply Rmult_lt_0_compat; lra).
          assert (0 <= ahead (corner l (S i)) (corner l (S (S i))) (corner l i) * L (S i)) by nra.
          nra. }
        split; [done|]. destruct (Hcase i Li) as [|(_ & _ & ?)]; [done|lra]. }
    assert (Hm : ∀ k, (S k <= length l)%nat → D i0 < D (i0 + S k)%nat).
    { intros k. induction k as [|k IH]; intros Hk.
      - destruct (Hq (length l)%nat ltac:(lia)) as [_ Q]. rewrite Nat.sub_diag, Nat.add_0_r in Q.
        pose proof (ahead_dist (corner l i0) (corner l (S i0)) p) as E. fold (A i0) (D i0) (D (S i0)) in E.
        pose proof (edge_sq_nonneg (corner l i0) (corner l (S i0))). rewrite Nat.add_1_r. lra.
      - destruct (Hq (length l - S k)%nat ltac:(lia)) as [_ Q].
        replace (length l - (length l - S k))%nat with (S k) in Q by lia.
        pose proof (ahead_dist (corner l (i0 + S k)) (corner l (S (i0 + S k))) p) as E.
        fold (A (i0 + S k)%nat) (D (i0 + S k)%nat) (D (S (i0 + S k))) in E.
        pose proof (edge_sq_nonneg (corner l (i0 + S k)) (corner l (S (i0 + S k)))).
        replace (i0 + S (S k))%nat with (S (i0 + S k)) by lia. specialize (IH ltac:(lia)). lra. }
    specialize (Hm (length l - 1)%nat ltac:(lia)). replace (S (length l - 1)) with (length l) in Hm by lia. lra.
  - (* forwards *)
    assert (Hq : ∀ k, L (i0 + k)%nat <= 0 ∧ 0 < A (i0 + k)%nat).
    { intros k. induction k as [|k [IL IA]]; [rewrite Nat.add_0_r; done|].
      replace (i0 + S k)%nat with (S (i0 + k)) by lia. set (i := (i0 + k)%nat) in *.
      destruct (Hcase i IL) as [|(_ & P & A')]; [lra|]. split; [|done].
      pose proof (turn_on (corner l i) (corner l (S i)) (corner l (S (S i))) p) as E.
      fold (L i) (L (S i)) in E. destruct (turn_edge _ _ _ (Ht i)) as [He _].
      pose proof (HB i) as B. pose proof (Ht i) as T.
      apply Rnot_lt_le. intros Hp.
      assert (0 < L (S i) * edge_sq (corner l i) (corner l (S i))) by (apply Rmult_lt_0_compat; lra).
      assert (0 <= ahead (corner l (S i)) (corner l (S (S i))) (corner l i) * L i) by nra.
      nra. }
    assert (Hm : ∀ k, D (i0 + S k)%nat < D i0).
    { intros k. assert (Hs : ∀ i, L i <= 0 → 0 < A i → D (S i) < D i).
      { intros i Li Ai. destruct (Hcase i Li) as [|(_ & P & _)]; [lra|].
        pose proof (past_dist (corner l i) (corner l (S i)) p) as E. fold (D i) (D (S i)) in E.
        destruct (turn_edge _ _ _ (Ht i)) as [He _]. lra. }
      induction k as [|k IH].
      - rewrite Nat.add_1_r. apply Hs; [done|]. destruct (Hq 0%nat) as [_ Q]. by rewrite Nat.add_0_r in Q.
      - destruct (Hq (S k)) as [Q1 Q2]. specialize (Hs _ Q1 Q2). replace (i0 + S (S k))%nat with (S (i0 + S k)) by lia. lra. }
    specialize (Hm (length l - 1)%nat). replace (S (length l - 1)) with (length l) in Hm by lia. lra.
Qed.

(** * The test whether a point is inside *)
Lemma inside_loop_true vs p : inside_loop vs p = true ↔ ∀ a b, step_of vs a b → 0 <= left_of a b p.
Proof.
  induction vs as [|v vs IH].
  { split; [|done]. intros _ a b (l1 & l2 & E). destruct l1; discriminate. }
  destruct vs as [|w vs].
  { split; [|done]. intros _ a b (l1 & l2 & E). destruct l1 as [|? [|]]; discriminate. }
  change (inside_loop (v :: w :: vs) p) with (if beyond v w p then false else inside_loop (w :: vs) p).
  unfold beyond. rewrite outward_left.
  destruct (rltb 0 (- left_of v w p)) eqn:E; [apply rltb_true in E|apply rltb_false in E].
  - split; [done|]. intros H. specialize (H v w ltac:(by exists [], vs)). lra.
  - rewrite IH. split.
    + intros H a b ([|c l1] & l2 & El); simplify_eq/=; [lra|]. apply H. by exists l1, l2.
    + intros H a b (l1 & l2 & El). apply H. exists (v :: l1), l2. simpl. by f_equal.
Qed.
