(** Proofs about convex hulls of the plane. *)
From Verif Require Import Outcome BoxModel GeoModel RotSpec RotProofs NearModel PlaneModel PlaneSpec PlaneProofs PlaneProofs3.
From Coq Require Import Reals Lra Psatz.
Local Open Scope R_scope.

Lemma scan_max_spec f ps i best idx :
  (scan_max f ps i best idx = idx ∧ ∀ p, p ∈ ps → f p <= best) ∨
  ∃ k p, scan_max f ps i best idx = (i + k)%nat ∧ ps !! k = Some p ∧ best < f p ∧ ∀ q, q ∈ ps → f q <= f p.
Proof.
  revert i best idx. induction ps as [|p ps IH]; intros i best idx; simpl.
  { left. split; [done|]. by intros p Hp%elem_of_nil. }
  destruct (rltb best (f p)) eqn:E; [apply rltb_true in E|apply rltb_false in E].
  - right. destruct (IH (S i) (f p) i) as [[-> H]|(k & q & -> & Hk & Hq & Hm)].
    + exists 0%nat, p. split_and!; [lia|done|done|]. intros q [->|Hq]%elem_of_cons; [lra|auto].
    + exists (S k), q. split_and!; [lia|done|lra|]. intros x [->|Hx]%elem_of_cons; [lra|auto].
  - destruct (IH (S i) best idx) as [[-> H]|(k & q & -> & Hk & Hq & Hm)].
    + left. split; [done|]. intros q [->|Hq]%elem_of_cons; [lra|auto].
    + right. exists (S k), q. split_and!; [lia|done|lra|]. intros x [->|Hx]%elem_of_cons; [lra|auto].
Qed.
(** with all values above the start, the index of a greatest value *)
Lemma scan_found f ps i idx : ps ≠ [] → (∀ p, p ∈ ps → - scalar_max < f p) →
  ∃ k p, scan_max f ps i (- scalar_max) idx = (i + k)%nat ∧ ps !! k = Some p ∧ ∀ q, q ∈ ps → f q <= f p.
Proof.
  intros Hne Hb. destruct (scan_max_spec f ps i (- scalar_max) idx) as [[_ H]|(k & p & E & Hk & _ & Hm)]; [|eauto].
  destruct ps as [|p ps]; [done|]. specialize (Hb p ltac:(left)). specialize (H p ltac:(left)). lra.
Qed.
Lemma pow62 : 2 ^ 62 = 4611686018427387904.
Proof. simpl. lra. Qed.
Lemma max_big : 2 ^ 62 * 2 ^ 65 <= scalar_max.
Proof. unfold scalar_max. simpl. lra. Qed.
Lemma max_coord : 2 ^ 62 < scalar_max.
Proof. unfold scalar_max. simpl. lra. Qed.

Lemma tame_proj p a b : tame p → tame a → tame b → - scalar_max < dot2 p (outward (sub2 b a)).
Proof.
  unfold tame, dot2, outward, neg2, orth2, sub2. simpl ux. simpl uy. intros Hp Ha Hb.
  pose proof max_big as Hm. set (B := 2 ^ 62) in *.
  assert (HB : 0 < B) by (unfold B; rewrite pow62; lra).
  assert (G : ∀ x y, - B <= x <= B → - (2 * B) <= y <= 2 * B → - (2 * B * B) <= x * y).
  { intros x y Hx Hy. nra. }
  pose proof (G (ux p) (- - (uy b - uy a)) ltac:(lra) ltac:(lra)).
  pose proof (G (uy p) (- (ux b - ux a)) ltac:(lra) ltac:(lra)).
  assert (4 * B * B < B * 2 ^ 65).
  { replace (2 ^ 65) with (8 * B) by (unfold B; simpl; lra). nra. }
  lra.
Qed.

(** * Splitting an edge *)
Section hull.
Context (points : list v2) (tol : R).
Hypothesis Htame : ∀ p, p ∈ points → tame p.
Hypothesis Htol : 0 < tol.

Notation dir v0 v1 := (outward (sub2 v1 v0)).
Definition top_in (u v : v2) : Prop := ∀ q, q ∈ points → dot2 q u <= dot2 v u.
Definition none_out (v0 v1 : v2) : Prop := ∀ q, q ∈ points → 0 <= left_of v0 v1 q.
Definition inv (v0 v1 : v2) : Prop :=
  (∃ u, top_in u v0 ∧ (0 < perp2 u (dir v0 v1) ∨ none_out v0 v1)) ∧
  (∃ u, top_in u v1 ∧ (0 < perp2 (dir v0 v1) u ∨ none_out v0 v1)).
Definition outs (v0 v1 : v2) : list v2 := filter (λ q, rltb (left_of v0 v1 q) 0 = true) points.

Lemma split_left v0 v1 w u : top_in u v0 → 0 < perp2 u (dir v0 v1) → w ∈ points → left_of v0 v1 w < 0 →
  (∀ q, q ∈ points → left_of v0 w q < 0 → left_of v0 v1 q < 0) ∧
  (0 < perp2 u (dir v0 w) ∨ none_out v0 w).
Proof.
  intros Hu Hp Hw Hl.
  assert (Hi : ∀ q, perp2 u (dir v0 v1) * - left_of v0 w q =
    - left_of v0 v1 w * (dot2 q u - dot2 v0 u) + perp2 u (dir v0 w) * - left_of v0 v1 q).
  { intros q. unfold left_of, perp2, dot2, outward, neg2, orth2, sub2. simpl. ring. }
  assert (Hk : perp2 u (dir v0 w) = dot2 v0 u - dot2 w u).
  { unfold perp2, dot2, outward, neg2, orth2, sub2. simpl. ring. }
  pose proof (Hu w Hw) as Huw. split.
  - intros q Hq Hlq. specialize (Hi q). specialize (Hu q Hq).
    assert (0 < perp2 u (dir v0 v1) * - left_of v0 w q) by (apply Rmult_lt_0_compat; lra).
    assert (- left_of v0 v1 w * (dot2 q u - dot2 v0 u) <= 0) by nra.
    apply Rnot_le_lt. intros Hge. assert (perp2 u (dir v0 w) * - left_of v0 v1 q <= 0) by nra. lra.
  - destruct (Req_dec (perp2 u (dir v0 w)) 0) as [E|E]; [right|left; lra].
    intros q Hq. specialize (Hi q). specialize (Hu q Hq). rewrite E, Rmult_0_l in Hi.
    apply Rnot_lt_le. intros Hlt.
    assert (0 < perp2 u (dir v0 v1) * - left_of v0 w q) by (apply Rmult_lt_0_compat; lra).
    assert (- left_of v0 v1 w * (dot2 q u - dot2 v0 u) <= 0) by nra. lra.
Qed.
Lemma split_right v0 v1 w u : top_in u v1 → 0 < perp2 (dir v0 v1) u → w ∈ points → left_of v0 v1 w < 0 →
  (∀ q, q ∈ points → left_of w v1 q < 0 → left_of v0 v1 q < 0) ∧
  (0 < perp2 (dir w v1) u ∨ none_out w v1).
Proof.
  intros Hu Hp Hw Hl.
  assert (Hi : ∀ q, perp2 (dir v0 v1) u * - left_of w v1 q =
    - left_of v0 v1 w * (dot2 q u - dot2 v1 u) + perp2 (dir w v1) u * - left_of v0 v1 q).
  { intros q. unfold left_of, perp2, dot2, outward, neg2, orth2, sub2. simpl. ring. }
  assert (Hk : perp2 (dir w v1) u = dot2 v1 u - dot2 w u).
  { unfold perp2, dot2, outward, neg2, orth2, sub2. simpl. ring. }
  pose proof (Hu w Hw) as Huw. split.
  - intros q Hq Hlq. specialize (Hi q). specialize (Hu q Hq).
    assert (0 < perp2 (dir v0 v1) u * - left_of w v1 q) by (apply Rmult_lt_0_compat; lra).
    assert (- left_of v0 v1 w * (dot2 q u - dot2 v1 u) <= 0) by nra.
    apply Rnot_le_lt. intros Hge. assert (perp2 (dir w v1) u * - left_of v0 v1 q <= 0) by nra. lra.
  - destruct (Req_dec (perp2 (dir w v1) u) 0) as [E|E]; [right|left; lra].
    intros q Hq. specialize (Hi q). specialize (Hu q Hq). rewrite E, Rmult_0_l in Hi.
    apply Rnot_lt_le. intros Hlt.
    assert (0 < perp2 (dir v0 v1) u * - left_of w v1 q) by (apply Rmult_lt_0_compat; lra).
    assert (- left_of v0 v1 w * (dot2 q u - dot2 v1 u) <= 0) by nra. lra.
Qed.

Lemma filter_shorter (P Q : v2 → Prop) `{∀ x, Decision (P x), ∀ x, Decision (Q x)} (l : list v2) w :
  (∀ x, x ∈ l → P x → Q x) → w ∈ l → Q w → ¬ P w → (length (filter P l) < length (filter Q l))%nat.
Proof.
  assert (Hle : ∀ l, (∀ x, x ∈ l → P x → Q x) → (length (filter P l) <= length (filter Q l))%nat).
  { clear. induction l as [|x l IH]; intros H1; [done|]. rewrite !filter_cons.
    assert (Hl := IH ltac:(intros y Hy; apply H1; by right)).
    destruct (decide (P x)) as [Px|Px]; destruct (decide (Q x)) as [Qx|Qx]; simpl; try lia.
    exfalso. apply Qx, H1; [left|done]. }
  induction l as [|x l IH]; intros H1 Hw HQ HP; [by apply elem_of_nil in Hw|].
  assert (Hsub : ∀ y, y ∈ l → P y → Q y) by (intros y Hy; apply H1; by right).
  rewrite !filter_cons. apply elem_of_cons in Hw as [->|Hw].
  - rewrite decide_False by done. rewrite decide_True by done. simpl. specialize (Hle l Hsub). lia.
  - specialize (IH Hsub Hw HQ HP).
    destruct (decide (P x)) as [Px|Px]; destruct (decide (Q x)) as [Qx|Qx]; simpl; try lia.
    exfalso. apply Qx, H1; [left|done].
Qed.
Lemma outs_shorter v0 v1 a b w : w ∈ points → left_of v0 v1 w < 0 → 0 <= left_of a b w →
  (∀ q, q ∈ points → left_of a b q < 0 → left_of v0 v1 q < 0) → (length (outs a b) < length (outs v0 v1))%nat.
Proof.
  intros Hw H1 H2 H. unfold outs. apply (filter_shorter _ _ points w); try done.
  - intros x Hx. rewrite !rltb_true. auto.
  - by rewrite rltb_true.
  - rewrite rltb_true. lra.
Qed.

Definition covered (l : list nat) : Prop := ∀ x y vx vy q, step_of l x y →
  points !! x = Some vx → points !! y = Some vy → q ∈ points → - tol <= left_of vx vy q.
Definition good_index (i : nat) : Prop := ∃ v, points !! i = Some v ∧ extreme points v.

Lemma step_join {A} (l1 l2 : list A) m x y :
  step_of (l1 ++ m :: l2) x y → step_of (l1 ++ [m]) x y ∨ step_of (m :: l2) x y.
Proof.
  intros (k1 & k2 & E). revert k1 E. induction l1 as [|a l1 IH]; intros k1 E; simpl in *.
  - right. by exists k1, k2.
  - destruct k1 as [|b k1]; simplify_eq/=.
    + destruct l1 as [|c l1]; simplify_eq/=; left.
      * by exists [], [].
      * exists [], (l1 ++ [m]). done.
    + destruct (IH k1) as [(j1 & j2 & E')|]; [done| |by right].
      left. exists (b :: j1), j2. simpl. by f_equal.
Qed.

Lemma inv_split v0 v1 w : inv v0 v1 → w ∈ points → left_of v0 v1 w < 0 → top_in (dir v0 v1) w →
  inv v0 w ∧ inv w v1 ∧ (length (outs v0 w) < length (outs v0 v1))%nat ∧ (length (outs w v1) < length (outs v0 v1))%nat.
Proof.
  intros [(u0 & T0 & [P0|N0]) (u1 & T1 & [P1|N1])] Hw Hl Ht;
    try (specialize (N0 w Hw); lra); try (specialize (N1 w Hw); lra).
  destruct (split_left v0 v1 w u0) as [S1 S2]; [done..|].
  destruct (split_right v0 v1 w u1) as [R1 R2]; [done..|].
  assert (E1 : perp2 (dir v0 w) (dir v0 v1) = - left_of v0 v1 w).
  { unfold left_of, perp2, dot2, outward, neg2, orth2, sub2. simpl. ring. }
  assert (E2 : perp2 (dir v0 v1) (dir w v1) = - left_of v0 v1 w).
  { unfold left_of, perp2, dot2, outward, neg2, orth2, sub2. simpl. ring. }
  split_and!.
  - split; [by exists u0|]. exists (dir v0 v1). split; [done|]. left. lra.
  - split; [|by exists u1]. exists (dir v0 v1). split; [done|]. left. lra.
  - apply (outs_shorter _ _ _ _ w); try done. unfold left_of. lra.
  - apply (outs_shorter _ _ _ _ w); try done. unfold left_of. lra.
Qed.

Lemma farthest_ok v0 v1 : v0 ∈ points → v1 ∈ points →
  ∃ w, points !! farthest points (dir v0 v1) = Some w ∧ top_in (dir v0 v1) w.
Proof.
  intros H0 H1. unfold farthest.
  destruct (scan_found (λ p, dot2 p (dir v0 v1)) points 0 0) as (k & w & -> & Hk & Hm).
  - intros ->. by apply elem_of_nil in H0.
  - intros p Hp. apply tame_proj; auto.
  - exists w. split; [done|]. exact Hm.
Qed.

Local Arguments at_ : simpl never.
Lemma split_ok fuel : ∀ pre a b post v0 v1,
  points !! a = Some v0 → points !! b = Some v1 → inv v0 v1 → (length (outs v0 v1) < fuel)%nat →
  ∃ mid, split_hull_edge fuel points (pre ++ a :: b :: post) (length pre) (S (length pre)) tol
    = Ok (pre ++ a :: mid ++ b :: post, length mid) ∧
    Forall good_index mid ∧ covered (a :: mid ++ [b]).
Proof.
  induction fuel as [|fuel IH]; intros pre a b post v0 v1 Ha Hb Hi Hf; [lia|].
  pose proof (elem_of_list_lookup_2 _ _ _ Ha) as Pa. pose proof (elem_of_list_lookup_2 _ _ _ Hb) as Pb.
  assert (A1 : at_ (pre ++ a :: b :: post) (length pre) = Ok a).
  { unfold at_. by rewrite lookup_app_r, Nat.sub_diag by lia. }
  assert (A2 : at_ (pre ++ a :: b :: post) (S (length pre)) = Ok b).
  { unfold at_. rewrite lookup_app_r by lia. by replace (S (length pre) - length pre)%nat with 1%nat by lia. }
  assert (A3 : at_ points a = Ok v0) by (unfold at_; by rewrite Ha).
  assert (A4 : at_ points b = Ok v1) by (unfold at_; by rewrite Hb).
  destruct (farthest_ok v0 v1 Pa Pb) as (w & Hw & Ht).
  assert (A5 : at_ points (farthest points (dir v0 v1)) = Ok w) by (unfold at_; by rewrite Hw).
  simpl. rewrite A1. simpl. rewrite A2. simpl. rewrite A3. simpl. rewrite A4. simpl. rewrite A5. simpl.
  pose proof (elem_of_list_lookup_2 _ _ _ Hw) as Pw.
  rewrite outward_left. set (c := farthest points (dir v0 v1)) in *.
  assert (Htop : ∀ q, q ∈ points → left_of v0 v1 w <= left_of v0 v1 q).
  { intros q Hq. specialize (Ht q Hq). pose proof (outward_left v0 v1 w). pose proof (outward_left v0 v1 q).
    unfold dot2, sub2 in *. simpl in *. lra. }
  destruct (rltb tol (- left_of v0 v1 w)) eqn:E; [apply rltb_true in E|apply rltb_false in E].
  2:{ exists []. split; [done|]. split; [done|]. intros x y vx vy q (l1 & l2 & El) Hx Hy Hq.
      assert (x = a ∧ y = b) as [-> ->].
      { destruct l1 as [|? [|? l1]]; simplify_eq/=; [done|]. by destruct l1. }
      simplify_eq. specialize (Htop q Hq). lra. }
  assert (Hl : left_of v0 v1 w < 0) by lra.
  destruct (inv_split v0 v1 w Hi Pw Hl Ht) as (I1 & I2 & L1 & L2).
  assert (Ei : insert_at (pre ++ a :: b :: post) (S (length pre)) c = pre ++ a :: c :: (b :: post)).
  { unfold insert_at. replace (pre ++ a :: b :: post) with ((pre ++ [a]) ++ b :: post) by (by rewrite <- app_assoc).
    assert (El : S (length pre) = length (pre ++ [a])) by (rewrite app_length; simpl; lia).
    rewrite El, take_app, drop_app, <- app_assoc. done. }
  rewrite Ei.
  destruct (IH pre a c (b :: post) v0 w Ha Hw I1 ltac:(lia)) as (m1 & -> & G1 & C1). simpl.
  destruct (IH (pre ++ a :: m1) c b post w v1 Hw Hb I2 ltac:(lia)) as (m2 & E2 & G2 & C2).
  rewrite app_length in E2. simpl in E2.
  replace (pre ++ a :: m1 ++ c :: b :: post) with ((pre ++ a :: m1) ++ c :: b :: post) by (rewrite <- app_assoc; done).
  match goal with |- context [split_hull_edge _ _ _ ?x ?y _] =>
    replace y with (S (length pre + S (length m1))) by lia; replace x with (length pre + S (length m1))%nat by lia end.
  rewrite E2. simpl. exists (m1 ++ c :: m2). split_and!.
  - f_equal. f_equal; [|rewrite app_length; simpl; lia]. repeat (rewrite <- app_assoc; simpl). done.
  - apply Forall_app. split; [done|]. constructor; [|done]. exists w. split; [done|].
    exists (ux (dir v0 v1)), (uy (dir v0 v1)). split.
    + destruct (Req_dec (ux (dir v0 v1)) 0) as [E0|]; [|by left].
      destruct (Req_dec (uy (dir v0 v1)) 0) as [E1|]; [|by right]. exfalso.
      pose proof (outward_left v0 v1 w) as X. unfold dot2 in X. rewrite E0, E1 in X. lra.
    + intros p Hp. specialize (Ht p Hp). unfold dot2 in Ht. lra.
  - intros x y vx vy q Hs. rewrite <- app_assoc in Hs. simpl in Hs.
    change (a :: m1 ++ c :: m2 ++ [b]) with ((a :: m1) ++ c :: (m2 ++ [b])) in Hs.
    apply step_join in Hs as [Hs|Hs]; [by apply C1|by apply C2].
Qed.

(** * The whole hull *)
Lemma greatest_spec (f : v2 → R) ps : ps ≠ [] → (∀ p, p ∈ ps → - scalar_max < f p) →
  (∀ p, p ∈ ps → f p <= greatest f ps) ∧ ∃ p, p ∈ ps ∧ greatest f ps = f p.
Proof.
  unfold greatest. intros Hne Hb.
  assert (G : ∀ m, let r := foldl (λ m p, if rltb m (f p) then f p else m) m ps in
     m <= r ∧ (∀ p, p ∈ ps → f p <= r) ∧ (r = m ∨ ∃ p, p ∈ ps ∧ r = f p)).
  { clear. induction ps as [|p ps IH]; intros m; simpl.
    - split_and!; [lra|by intros p Hp%elem_of_nil|by left].
    - destruct (rltb m (f p)) eqn:E; [apply rltb_true in E|apply rltb_false in E].
      + destruct (IH (f p)) as (H1 & H2 & H3). split_and!; [lra| |].
        * intros q [->|Hq]%elem_of_cons; [lra|auto].
        * right. destruct H3 as [->|(q & Hq & ->)]; [exists p; split; [left|done]|exists q; split; [by right|done]].
      + destruct (IH m) as (H1 & H2 & H3). split_and!; [lra| |].
        * intros q [->|Hq]%elem_of_cons; [lra|auto].
        * destruct H3 as [->|(q & Hq & ->)]; [by left|right; exists q; split; [by right|done]]. }
  destruct (G (- scalar_max)) as (H1 & H2 & H3). split; [done|].
  destruct H3 as [E|]; [|done]. destruct ps as [|p ps]; [done|].
  specialize (Hb p ltac:(left)). specialize (H2 p ltac:(left)). lra.
Qed.

Lemma tame_coords p : tame p → - scalar_max < ux p ∧ - scalar_max < - ux p ∧ - scalar_max < uy p ∧ - scalar_max < - uy p.
Proof. unfold tame. pose proof max_coord. lra. Qed.
Lemma first_max_ok (f : v2 → R) idx : points ≠ [] → (∀ p, p ∈ points → - scalar_max < f p) →
  ∃ v, points !! first_max f points idx = Some v ∧ v ∈ points ∧ ∀ q, q ∈ points → f q <= f v.
Proof.
  intros Hne Hb. unfold first_max. destruct (scan_found f points 0 idx Hne Hb) as (k & v & -> & Hk & Hm).
  exists v. split_and!; [done|by eapply elem_of_list_lookup_2|done].
Qed.

Definition sides_covered (l : list nat) : Prop := ∀ x y vx vy q, side_of l x y →
  points !! x = Some vx → points !! y = Some vy → q ∈ points → - tol <= left_of vx vy q.
Definition narrow_hull (l : list nat) : Prop := ∃ a b va vb, l = [a; b] ∧
  points !! a = Some va ∧ points !! b = Some vb ∧
  ∀ q, q ∈ points → uy vb <= uy q <= uy va ∧ Rabs (ux q - ux va) < tol ∧ Rabs (ux q - ux vb) < tol.

Lemma hull_large : (3 < length points)%nat → ∃ l,
  (∀ fuel, (length points < fuel)%nat → calculate_convex_hull fuel points tol = Ok l) ∧
  Forall good_index l ∧ ((sides_covered l ∧ spans points tol l) ∨ narrow_hull l).
Proof.
  intros Hlen. assert (Hne : points ≠ []) by (intros E; rewrite E in Hlen; simpl in Hlen; lia).
  assert (Hb : ∀ p, p ∈ points → - scalar_max < ux p ∧ - scalar_max < - ux p ∧ - scalar_max < uy p ∧ - scalar_max < - uy p).
  { intros p Hp. by apply tame_coords, Htame. }
  destruct (greatest_spec ux points Hne) as [M1 (pm & Hpm & Em)]; [intros; by apply Hb|].
  destruct (greatest_spec (λ p, - ux p) points Hne) as [N1 (pn & Hpn & En)]; [intros; by apply Hb|].
  destruct (first_max_ok ux 0 Hne) as (vM & LM & PM & TM); [intros; by apply Hb|].
  destruct (first_max_ok (λ p, - ux p) 0 Hne) as (vm & Lm & Pm & Tm); [intros; by apply Hb|].
  change (first_max (λ p, - ux p) points 0) with (first_min ux points 0) in Lm.
  set (imax := first_max ux points 0) in *. set (imin := first_min ux points 0) in *.
  assert (Hc : ∀ fuel, calculate_convex_hull fuel points tol =
    if rltb (greatest ux points - - greatest (λ p, - ux p) points) tol then
      Ok [first_max uy points imax; first_min uy points imin]
    else
      r1 ← split_hull_edge fuel points [imax; imin; imax] 0 1 tol;
      r2 ← split_hull_edge fuel points r1.1 (1 + r1.2) (1 + r1.2 + 1) tol;
      Ok (removelast r2.1)).
  { intros fuel. unfold calculate_convex_hull.
    destruct points as [|? [|? [|? [|? ?]]]]; simpl in Hlen; try lia. done. }
  destruct (rltb (greatest ux points - - greatest (λ p, - ux p) points) tol) eqn:E.
  - apply rltb_true in E. eexists. split; [intros; apply Hc|].
    destruct (first_max_ok uy imax Hne) as (va & La & Pa & Ta); [intros; by apply Hb|].
    destruct (first_max_ok (λ p, - uy p) imin Hne) as (vb & Lb & Pb & Tb); [intros; by apply Hb|].
    change (first_max (λ p, - uy p) points imin) with (first_min uy points imin) in Lb.
    split.
    + repeat constructor.
      * exists va. split; [done|]. exists 0, 1. split; [right; lra|]. intros p Hp. specialize (Ta p Hp). lra.
      * exists vb. split; [done|]. exists 0, (-1). split; [right; lra|]. intros p Hp. specialize (Tb p Hp). lra.
    + right. exists (first_max uy points imax), (first_min uy points imin), va, vb.
      split_and!; [done..|]. intros q Hq. pose proof (Ta q Hq). pose proof (Tb q Hq).
      pose proof (M1 q Hq). pose proof (N1 q Hq). pose proof (M1 va Pa). pose proof (N1 va Pa).
      pose proof (M1 vb Pb). pose proof (N1 vb Pb). simpl in *.
      split_and!; try lra; apply Rabs_def1; lra.
  - apply rltb_false in E.
    assert (Hw : ux vm + tol <= ux vM).
    { specialize (TM pm Hpm). specialize (Tm pn Hpn). simpl in Tm. lra. }
    assert (I1 : inv vM vm).
    { split; [exists (V2 1 0)|exists (V2 (-1) 0)]; (split; [intros q Hq; pose proof (TM q Hq); pose proof (Tm q Hq); unfold dot2; simpl in *; lra|left]);
        unfold perp2, outward, neg2, orth2, sub2; simpl; lra. }
    assert (I2 : inv vm vM).
    { split; [exists (V2 (-1) 0)|exists (V2 1 0)]; (split; [intros q Hq; pose proof (TM q Hq); pose proof (Tm q Hq); unfold dot2; simpl in *; lra|left]);
        unfold perp2, outward, neg2, orth2, sub2; simpl; lra. }
    assert (Hf : ∀ a b, (length (outs a b) <= length points)%nat) by (intros; apply filter_length).
    assert (GM : good_index imax).
    { exists vM. split; [done|]. exists 1, 0. split; [left; lra|]. intros p Hp. specialize (TM p Hp). lra. }
    assert (Gm : good_index imin).
    { exists vm. split; [done|]. exists (-1), 0. split; [left; lra|]. intros p Hp. specialize (Tm p Hp). simpl in Tm. lra. }
    (* the result does not depend on the fuel *)
    assert (Hr : ∀ fuel, (length points < fuel)%nat → ∃ m1 m2,
      calculate_convex_hull fuel points tol = Ok (imax :: m1 ++ imin :: m2) ∧
      Forall good_index m1 ∧ Forall good_index m2 ∧ covered (imax :: m1 ++ [imin]) ∧ covered (imin :: m2 ++ [imax])).
    { intros fuel Hfu. rewrite Hc.
      destruct (split_ok fuel [] imax imin [imax] vM vm LM Lm I1) as (m1 & E1 & G1 & C1); [specialize (Hf vM vm); lia|].
      destruct (split_ok fuel (imax :: m1) imin imax [] vm vM Lm LM I2) as (m2 & E2 & G2 & C2); [specialize (Hf vm vM); lia|].
      simpl in E1, E2. rewrite E1. simpl. replace (S (length m1 + 1))%nat with (S (S (length m1))) by lia.
      change ((imax :: m1) ++ [imin; imax]) with (imax :: m1 ++ [imin; imax]) in E2.
      rewrite E2. exists m1, m2. split_and!; try done.
      change (Ok (removelast ((imax :: m1) ++ (imin :: m2) ++ [imax])) = Ok (imax :: m1 ++ imin :: m2)).
      rewrite app_assoc, removelast_last. done. }
    destruct (Hr (S (length points)) ltac:(lia)) as (m1 & m2 & E1 & G1 & G2 & C1 & C2).
    exists (imax :: m1 ++ imin :: m2). split_and!.
    + intros fuel Hfu. (* more fuel, same result *)
      revert E1. rewrite !Hc.
      assert (Hmono : ∀ f1 f2 hull i0 i1 r, (f1 <= f2)%nat → split_hull_edge f1 points hull i0 i1 tol = Ok r →
                split_hull_edge f2 points hull i0 i1 tol = Ok r).
      { clear. induction f1 as [|f1 IH]; intros f2 hull i0 i1 r Hle H; [done|].
        destruct f2 as [|f2]; [lia|]. simpl in *.
        destruct (at_ hull i0); simpl in *; try done. destruct (at_ hull i1); simpl in *; try done.
        destruct (at_ points _); simpl in *; try done. destruct (at_ points _); simpl in *; try done.
        destruct (at_ points _); simpl in *; try done.
        destruct (rltb tol _); [|done].
        apply bind_ok in H as (r1 & H1 & H). apply bind_ok in H as (r2 & H2 & H).
        rewrite (IH f2 _ _ _ r1); [|lia|done]. simpl. rewrite (IH f2 _ _ _ r2); [|lia|done]. done. }
      intros H. apply bind_ok in H as (r1 & H1 & H). apply bind_ok in H as (r2 & H2 & H).
      rewrite (Hmono (S (length points)) fuel _ _ _ _ ltac:(lia) H1). simpl.
      simpl in H2. rewrite (Hmono (S (length points)) fuel _ _ _ _ ltac:(lia) H2). done.
    + constructor; [done|]. apply Forall_app. split; [done|]. by constructor.
    + left. split; cycle 1.
      { exists imin, imax, vm, vM. split_and!; try done; [right; apply elem_of_app; right; left|left|].
        intros q Hq. specialize (TM q Hq). specialize (Tm q Hq). simpl in Tm. lra. }
      intros x y vx vy q Hs Hx Hy Hq. destruct Hs as [Hs|[Hl Hh]].
      * change (imax :: m1 ++ imin :: m2) with ((imax :: m1) ++ imin :: m2) in Hs.
        apply step_join in Hs as [Hs|Hs]; [by eapply (C1 x y)|].
        eapply (C2 x y); [|done..]. destruct Hs as (l1 & l2 & El). exists l1, (l2 ++ [imax]).
        change (imin :: m2 ++ [imax]) with ((imin :: m2) ++ [imax]). rewrite El, <- app_assoc. done.
      * simpl in Hh. assert (y = imax) as Ey by congruence. rewrite Ey in Hy. eapply (C2 x imax); [|done..].
        change (imax :: m1 ++ imin :: m2) with ((imax :: m1) ++ (imin :: m2)) in Hl.
        rewrite last_app in Hl. destruct (last (imin :: m2)) as [z|] eqn:El; [|by rewrite last_None in El].
        assert (z = x) as -> by (injection Hl; done). apply last_Some in El as [l' El]. exists l', [].
        change (imin :: m2 ++ [imax]) with ((imin :: m2) ++ [imax]). rewrite El, <- app_assoc. done.
Qed.
End hull.
