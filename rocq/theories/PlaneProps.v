(** Properties of segments, rectangles, polygons and hulls of the plane. *)
From Verif Require Import Outcome BoxModel GeoModel RotSpec RotProofs NearModel PlaneModel PlaneSpec.
From Verif Require Import PlaneProofs PlaneProofs2 PlaneProofs3 PlaneProofs4.
From Coq Require Import Reals Lra Psatz.
Local Open Scope R_scope.

(** * C88: two segments *)
Theorem C88_crossing p0 p1 q0 q1 :
  eps < Rabs (perp2 (sub2 p1 p0) (sub2 q1 q0)) →
  ∃ l, intersect_segments p0 p1 q0 q1 = Ok l ∧
    ∀ x, shared p0 p1 q0 q1 x ↔ ∃ s t, l = [(s, t)] ∧ x = pt p0 p1 s ∧ x = pt q0 q1 t.
Proof. exact (segments_cross p0 p1 q0 q1). Qed.
Print Assumptions C88_crossing.
Theorem C88_parallel p0 p1 q0 q1 :
  perp2 (sub2 p1 p0) (sub2 q1 q0) = 0 → eps <= Rabs (perp2 (sub2 q0 p0) (sub2 p1 p0)) →
  intersect_segments p0 p1 q0 q1 = Ok [] ∧ ∀ x, ¬ shared p0 p1 q0 q1 x.
Proof. exact (segments_parallel p0 p1 q0 q1). Qed.
Print Assumptions C88_parallel.
Theorem C88_collinear p0 p1 q0 q1 :
  p0 ≠ p1 → q0 ≠ q1 →
  perp2 (sub2 p1 p0) (sub2 q1 q0) = 0 → perp2 (sub2 q0 p0) (sub2 p1 p0) = 0 →
  ∃ l, intersect_segments p0 p1 q0 q1 = Ok l ∧
    (∀ s t, (s, t) ∈ l → shared p0 p1 q0 q1 (pt p0 p1 s) ∧ shared p0 p1 q0 q1 (pt q0 q1 t)) ∧
    (∀ x, shared p0 p1 q0 q1 x → ∃ u, x = pt p0 p1 u ∧
       ((∃ a b, a ∈ l ∧ b ∈ l ∧ a.1 <= u <= b.1) ∨ ∃ a, l = [a] ∧ Rabs (u - a.1) < eps)) ∧
    (0 < dot2 (sub2 p1 p0) (sub2 q1 q0) → ∀ s t, (s, t) ∈ l → pt p0 p1 s = pt q0 q1 t).
Proof. exact (segments_collinear p0 p1 q0 q1). Qed.
Print Assumptions C88_collinear.

Ltac rcases := repeat match goal with
  | |- context [Rlt_dec ?a ?b] => destruct (Rlt_dec a b); try (exfalso; lra)
  | |- context [Rle_dec ?a ?b] => destruct (Rle_dec a b); try (exfalso; lra)
  | |- context [Req_EM_T ?a ?b] => destruct (Req_EM_T a b); try (exfalso; lra)
  end.
(** With opposite directions the two parameters of a pair belong to different points. *)
Theorem C88_refuted_opposite : ∃ p0 p1 q0 q1 l s t,
  intersect_segments p0 p1 q0 q1 = Ok l ∧ (s, t) ∈ l ∧ pt p0 p1 s ≠ pt q0 q1 t.
Proof.
  exists (V2 0 0), (V2 2 0), (V2 3 0), (V2 1 0), [(1, 1); (1/2, 1/2)], 1, 1. split_and!.
  - unfold intersect_segments, perp2, dot2, sub2. simpl.
    replace ((2 - 0) * (0 - 0) - (0 - 0) * (1 - 3)) with 0 by lra.
    replace ((3 - 0) * (0 - 0) - (0 - 0) * (2 - 0)) with 0 by lra. rewrite !Rabs_R0.
    pose proof eps_pos2. rewrite (proj2 (rltb_false eps 0)) by lra. rewrite (proj2 (rltb_true 0 eps)) by lra.
    unfold rdiv. rcases. simpl.
    replace (((0 - 3) * (1 - 3) + (0 - 0) * (0 - 0)) * (1 / ((1 - 3) * (1 - 3) + (0 - 0) * (0 - 0)))) with (3 / 2) by field.
    replace (((2 - 3) * (1 - 3) + (0 - 0) * (0 - 0)) * (1 / ((1 - 3) * (1 - 3) + (0 - 0) * (0 - 0)))) with (1 / 2) by field.
    replace (((3 - 0) * (2 - 0) + (0 - 0) * (0 - 0)) * (1 / ((2 - 0) * (2 - 0) + (0 - 0) * (0 - 0)))) with (3 / 2) by field.
    replace (((1 - 0) * (2 - 0) + (0 - 0) * (0 - 0)) * (1 / ((2 - 0) * (2 - 0) + (0 - 0) * (0 - 0)))) with (1 / 2) by field.
    replace (clamp_unit (3 / 2)) with 1 by (unfold clamp_unit; rcases; lra).
    replace (clamp_unit (1 / 2)) with (1 / 2) by (unfold clamp_unit; rcases; lra).
    replace (Rabs (1 / 2 - 1)) with (1 / 2) by (unfold Rabs; destruct Rcase_abs; lra).
    unfold rltb, eps. rcases. done.
  - left.
  - unfold pt. simpl. intros E. injection E. lra.
Qed.
Print Assumptions C88_refuted_opposite.

Example ex88_cross : eps < Rabs (perp2 (sub2 (V2 2 2) (V2 0 0)) (sub2 (V2 0 2) (V2 2 0))) ∧
  shared (V2 0 0) (V2 2 2) (V2 2 0) (V2 0 2) (V2 1 1).
Proof.
  split.
  - unfold perp2, sub2, eps, Rabs. simpl. destruct Rcase_abs; lra.
  - split; exists (1/2); (split; [lra|]); apply v2_eq; simpl; lra.
Qed.
Example ex88_collinear : perp2 (sub2 (V2 2 2) (V2 0 0)) (sub2 (V2 3 3) (V2 1 1)) = 0 ∧
  perp2 (sub2 (V2 1 1) (V2 0 0)) (sub2 (V2 2 2) (V2 0 0)) = 0 ∧
  0 < dot2 (sub2 (V2 2 2) (V2 0 0)) (sub2 (V2 3 3) (V2 1 1)) ∧
  shared (V2 0 0) (V2 2 2) (V2 1 1) (V2 3 3) (V2 (3/2) (3/2)).
Proof.
  split_and!; try (unfold perp2, dot2, sub2; simpl; lra).
  split; [exists (3/4)|exists (1/4)]; (split; [lra|]); apply v2_eq; simpl; lra.
Qed.

(** * C89: a line and a rectangle *)
Theorem C89_oblique p0 p1 mn mx :
  ux mn < ux mx → uy mn < uy mx →
  eps <= Rabs (ux p1 - ux p0) → eps <= Rabs (uy p1 - uy p0) →
  ∃ l, intersect_line_aabb p0 p1 mn mx = Ok l ∧
    (∀ s, s ∈ l → on_rect mn mx (pt p0 p1 s)) ∧
    ((∀ t, pt p0 p1 t ≠ V2 (ux mn) (uy mx)) → (∀ t, pt p0 p1 t ≠ V2 (ux mx) (uy mn)) →
     ∀ t, in_rect mn mx (pt p0 p1 t) → covers l t).
Proof. exact (rect_oblique p0 p1 mn mx). Qed.
Print Assumptions C89_oblique.
Theorem C89_vertical p0 p1 mn mx :
  ux mn < ux mx → uy mn < uy mx → ux p1 = ux p0 → uy p1 ≠ uy p0 →
  ∃ l, intersect_line_aabb p0 p1 mn mx = Ok l ∧
    (∀ s, s ∈ l → on_rect mn mx (pt p0 p1 s)) ∧ (∀ t, in_rect mn mx (pt p0 p1 t) → covers l t).
Proof. exact (rect_vertical p0 p1 mn mx). Qed.
Print Assumptions C89_vertical.
Theorem C89_horizontal p0 p1 mn mx :
  ux mn < ux mx → uy mn < uy mx → uy p1 = uy p0 → eps <= Rabs (ux p1 - ux p0) →
  ∃ l, intersect_line_aabb p0 p1 mn mx = Ok l ∧
    (∀ s, s ∈ l → on_rect mn mx (pt p0 p1 s)) ∧ (∀ t, in_rect mn mx (pt p0 p1 t) → covers l t).
Proof. exact (rect_horizontal p0 p1 mn mx). Qed.
Print Assumptions C89_horizontal.

(** A diagonal of the rectangle is not found to meet it. *)
Theorem C89_refuted_diagonal : ∃ p0 p1 mn mx,
  ux mn < ux mx ∧ uy mn < uy mx ∧ (∃ t, ux mn < ux (pt p0 p1 t) < ux mx ∧ uy mn < uy (pt p0 p1 t) < uy mx) ∧
  intersect_line_aabb p0 p1 mn mx = Ok [].
Proof.
  exists (V2 (-2) 2), (V2 2 (-2)), (V2 (-1) (-1)), (V2 1 1). simpl. split_and!; try lra.
  - exists (1/2). lra.
  - unfold intersect_line_aabb. simpl.
    replace (Rabs (2 - -2)) with 4 by (unfold Rabs; destruct Rcase_abs; lra).
    replace (Rabs (-2 - 2)) with 4 by (unfold Rabs; destruct Rcase_abs; lra).
    unfold rltb, rleb, eps. rcases; simpl; try done; exfalso; lra.
Qed.
Print Assumptions C89_refuted_diagonal.
Example ex89 : (∀ t, pt (V2 0 0) (V2 2 1) t ≠ V2 (-1) 1) ∧ (∀ t, pt (V2 0 0) (V2 2 1) t ≠ V2 1 (-1)) ∧
  in_rect (V2 (-1) (-1)) (V2 1 1) (pt (V2 0 0) (V2 2 1) (1/4)).
Proof.
  split_and!; try (intros t E; unfold pt in E; simpl in E; injection E; lra).
  all: unfold in_rect; simpl; lra.
Qed.

(** * C90: convex polygons *)
Theorem C90_nearest vs ix p : Forall (λ i, (i < length vs)%nat) ix → convex (selected vs ix) →
  ∃ r, closest_point_convex_polygon vs ix p = Ok r ∧
    ∀ q, r = Some q → in_polygon (selected vs ix) q ∧
      ∀ x, in_polygon (selected vs ix) x → dist_sq p q <= dist_sq p x.
Proof.
  intros Hv Hc. eexists. split; [by apply closest_total|]. intros q Hq.
  apply closest_nearest; [done..|]. rewrite closest_total by done. by rewrite Hq.
Qed.
Print Assumptions C90_nearest.
Theorem C90_inside vs ix p : Forall (λ i, (i < length vs)%nat) ix → convex (selected vs ix) →
  inside_polygon (selected vs ix) p → closest_point_convex_polygon vs ix p = Ok None.
Proof. exact (closest_inside vs ix p). Qed.
Print Assumptions C90_inside.
Theorem C90_outside vs ix p : Forall (λ i, (i < length vs)%nat) ix →
  convex (selected vs ix) → blunt (selected vs ix) →
  (∀ i, ahead (corner (selected vs ix) i) (corner (selected vs ix) (S i)) p ≠ 0) →
  closest_point_convex_polygon vs ix p = Ok None → inside_polygon (selected vs ix) p.
Proof. exact (closest_none vs ix p). Qed.
Print Assumptions C90_outside.
Theorem C90_member vs p : (2 < length vs)%nat →
  ∃ b, point_inside_convex_polygon vs p = Ok b ∧ (b = true ↔ ∀ v w, step_of vs v w → 0 <= left_of v w p).
Proof.
  intros H. unfold point_inside_convex_polygon. rewrite (proj2 (Nat.ltb_lt _ _) H). simpl.
  eexists. split; [done|]. apply inside_loop_true.
Qed.
Print Assumptions C90_member.

Lemma every_corner (l : list v2) (P : v2 → v2 → v2 → Prop) : (0 < length l)%nat →
  (∀ j, (j < length l)%nat → P (corner l j) (corner l (S j)) (corner l (S (S j)))) →
  ∀ i, P (corner l i) (corner l (S i)) (corner l (S (S i))).
Proof.
  intros Hn H i. destruct (corner_mod l i Hn) as (<- & <- & <-). apply H. apply Nat.mod_upper_bound. lia.
Qed.
Lemma convex_check (l : list v2) : (3 <= length l)%nat →
  (∀ j k, (j < length l)%nat → (k < length l)%nat → 0 <= left_of (corner l j) (corner l (S j)) (corner l k)) →
  (∀ j, (j < length l)%nat → 0 < left_of (corner l j) (corner l (S j)) (corner l (S (S j)))) → convex l.
Proof.
  intros Hn H1 H2. split; [done|]. split.
  - intros k i. revert i. apply (every_corner l (λ a b _, 0 <= left_of a b (corner l k))); [lia|].
    intros j Hj. destruct (corner_mod l k) as (<- & _); [lia|]. apply H1; [done|]. apply Nat.mod_upper_bound. lia.
  - apply (every_corner l (λ a b c, 0 < left_of a b c)); [lia|done].
Qed.

Definition square : list v2 := [V2 0 0; V2 1 0; V2 1 1; V2 0 1].
Definition sharp : list v2 := [V2 0 0; V2 10 0; V2 0 1].
Lemma square_convex : convex (selected square [0; 1; 2; 3]%nat).
Proof.
  apply convex_check; simpl; [lia|..].
  - intros j k Hj Hk. destruct j as [|[|[|[|]]]]; try lia; destruct k as [|[|[|[|]]]]; try lia;
      unfold corner, left_of; simpl; lra.
  - intros j Hj. destruct j as [|[|[|[|]]]]; try lia; unfold corner, left_of; simpl; lra.
Qed.
Lemma sharp_convex : convex (selected sharp [0; 1; 2]%nat).
Proof.
  apply convex_check; simpl; [lia|..].
  - intros j k Hj Hk. destruct j as [|[|[|]]]; try lia; destruct k as [|[|[|]]]; try lia;
      unfold corner, left_of; simpl; lra.
  - intros j Hj. destruct j as [|[|[|]]]; try lia; unfold corner, left_of; simpl; lra.
Qed.
Lemma four_valid : Forall (λ i, (i < length square)%nat) [0; 1; 2; 3]%nat.
Proof. repeat constructor; simpl; lia. Qed.

(** Points in line with an edge, seen from its first corner, are taken for inside. *)
Theorem C90_refuted_aligned : ∃ vs ix p, Forall (λ i, (i < length vs)%nat) ix ∧
  convex (selected vs ix) ∧ blunt (selected vs ix) ∧ ¬ in_polygon (selected vs ix) p ∧
  closest_point_convex_polygon vs ix p = Ok None.
Proof.
  exists square, [0; 1; 2; 3]%nat, (V2 2 0). split_and!.
  - exact four_valid.
  - exact square_convex.
  - unfold blunt. apply (every_corner _ (λ a b c, ahead b c a <= 0)); simpl; [lia|].
    intros j Hj. destruct j as [|[|[|[|]]]]; try lia; unfold corner, ahead; simpl; lra.
  - intros H. specialize (H 1%nat). unfold corner, left_of in H. simpl in H. lra.
  - rewrite closest_total by (exact four_valid || exact square_convex). f_equal. apply first_verdict_none.
    intros j Hj. simpl in Hj. destruct j as [|[|[|[|]]]]; try lia;
      unfold verdict, corner, left_of, ahead, past, dot2, sub2, rltb; simpl; rcases; done.
Qed.
Print Assumptions C90_refuted_aligned.
(** So are points in front of an acute corner. *)
Theorem C90_refuted_acute : ∃ vs ix p, Forall (λ i, (i < length vs)%nat) ix ∧
  convex (selected vs ix) ∧ ¬ in_polygon (selected vs ix) p ∧
  (∀ i, ahead (corner (selected vs ix) i) (corner (selected vs ix) (S i)) p ≠ 0) ∧
  closest_point_convex_polygon vs ix p = Ok None.
Proof.
  assert (Hv : Forall (λ i, (i < length sharp)%nat) [0; 1; 2]%nat) by (repeat constructor; simpl; lia).
  exists sharp, [0; 1; 2]%nat, (V2 11 (1/2)). split_and!.
  - done.
  - exact sharp_convex.
  - intros H. specialize (H 1%nat). unfold corner, left_of in H. simpl in H. lra.
  - apply (every_corner _ (λ a b c, ahead a b (V2 11 (1/2)) ≠ 0)); simpl; [lia|].
    intros j Hj. destruct j as [|[|[|]]]; try lia; unfold corner, ahead; simpl; lra.
  - rewrite closest_total by (exact Hv || exact sharp_convex). f_equal. apply first_verdict_none.
    intros j Hj. simpl in Hj. destruct j as [|[|[|]]]; try lia;
      unfold verdict, corner, left_of, ahead, past, dot2, sub2, rltb; simpl; rcases; done.
Qed.
Print Assumptions C90_refuted_acute.
(** The test for points inside does not look at the side from the last corner to the first. *)
Theorem C90_refuted_member : ∃ vs p, convex vs ∧ ¬ in_polygon vs p ∧ point_inside_convex_polygon vs p = Ok true.
Proof.
  exists (selected square [0; 1; 2; 3]%nat), (V2 (-1) (1/2)). split_and!.
  - exact square_convex.
  - intros H. specialize (H 3%nat). unfold corner, left_of in H. simpl in H. lra.
  - destruct (C90_member (selected square [0; 1; 2; 3]%nat) (V2 (-1) (1/2))) as (b & -> & Hb); [simpl; lia|].
    f_equal. apply Hb. intros v w (l1 & l2 & E). simpl in E.
    destruct l1 as [|? [|? [|? [|? l1]]]]; simplify_eq/=; try (unfold left_of; simpl; lra). by destruct l1.
Qed.
Print Assumptions C90_refuted_member.
Example ex90 : closest_point_convex_polygon square [0; 1; 2; 3]%nat (V2 3 (1/2)) = Ok (Some (V2 1 (1/2))).
Proof.
  rewrite closest_total by (exact four_valid || exact square_convex). f_equal. simpl.
  unfold verdict, corner, left_of, ahead, past, edge_sq, dist_sq, dot2, sub2, rltb. simpl. rcases. f_equal. apply v2_eq; simpl; lra.
Qed.
Example ex90_outside : inside_polygon (selected square [0; 1; 2; 3]%nat) (V2 (1/3) (1/2)).
Proof.
  unfold inside_polygon. apply (every_corner _ (λ a b c, 0 < left_of a b (V2 (1/3) (1/2)))); simpl; [lia|].
  intros j Hj. destruct j as [|[|[|[|]]]]; try lia; unfold corner, left_of; simpl; lra.
Qed.

(** * C91: convex hulls *)
Theorem C91_hull points tol : (∀ p, p ∈ points → tame p) → 0 < tol → (3 < length points)%nat →
  ∃ l, (∀ fuel, (length points < fuel)%nat → calculate_convex_hull fuel points tol = Ok l) ∧
    Forall (λ i, ∃ v, points !! i = Some v ∧ extreme points v) l ∧
    ((fits points tol l ∧ spans points tol l) ∨ narrow points tol l).
Proof. exact (λ H1 H2, hull_large points tol H1 H2). Qed.
Print Assumptions C91_hull.
Theorem C91_small points tol : 0 < tol → points ≠ [] → (length points <= 3)%nat →
  ∃ l, (∀ fuel, calculate_convex_hull fuel points tol = Ok l) ∧
    (∀ i, i ∈ l ↔ (i < length points)%nat) ∧ NoDup l ∧ fits points tol l.
Proof.
  intros Ht Hne Hl. destruct points as [|a [|b [|c [|]]]]; simpl in Hl; try lia; try done.
  - exists [0%nat]. split_and!; [done|..].
    + intros i. rewrite elem_of_list_singleton. simpl. lia.
    + apply NoDup_singleton.
    + intros x y vx vy q Hs Hx Hy Hq. destruct x as [|x]; [|done]. destruct y as [|y]; [|done].
      simplify_eq/=. unfold left_of. lra.
  - exists [0; 1]%nat. split_and!; [done|..].
    + intros i. rewrite !elem_of_cons, elem_of_nil. simpl. lia.
    + apply NoDup_cons; split; [set_solver|apply NoDup_singleton].
    + intros x y vx vy q Hs Hx Hy Hq. apply elem_of_cons in Hq as [->|Hq%elem_of_list_singleton]; [|subst q];
        (destruct x as [|[|x]]; [| |done]); (destruct y as [|[|y]]; [| |done]); simplify_eq/=; unfold left_of; lra.
  - eexists. split; [intros; simpl; done|].
    unfold is_triangle_ccw. replace (dot2 (sub2 c a) (orth2 (sub2 b a))) with (left_of a b c)
      by (unfold left_of, dot2, sub2, orth2; simpl; ring).
    destruct (rltb 0 (left_of a b c)) eqn:E; [apply rltb_true in E|apply rltb_false in E].
    + split_and!.
      * intros i. rewrite !elem_of_cons, elem_of_nil. simpl. lia.
      * repeat (apply NoDup_cons; split; [set_solver|]). apply NoDup_nil_2.
      * intros x y vx vy q Hs Hx Hy Hq.
        assert ((x = 0 ∧ y = 1) ∨ (x = 1 ∧ y = 2) ∨ (x = 2 ∧ y = 0))%nat as Hc.
        { destruct Hs as [(l1 & l2 & El)|[E1 E2]]; [|simpl in *; simplify_eq; auto].
          destruct l1 as [|? [|? [|? l1]]]; simplify_eq/=; auto. by destruct l1. }
        rewrite !elem_of_cons, elem_of_nil in Hq.
        destruct Hc as [[-> ->]|[[-> ->]|[-> ->]]]; simplify_eq/=;
          destruct Hq as [->|[->|[->|[]]]]; unfold left_of in *; lra.
    + split_and!.
      * intros i. rewrite !elem_of_cons, elem_of_nil. simpl. lia.
      * repeat (apply NoDup_cons; split; [set_solver|]). apply NoDup_nil_2.
      * intros x y vx vy q Hs Hx Hy Hq.
        assert ((x = 2 ∧ y = 1) ∨ (x = 1 ∧ y = 0) ∨ (x = 0 ∧ y = 2))%nat as Hc.
        { destruct Hs as [(l1 & l2 & El)|[E1 E2]]; [|simpl in *; simplify_eq; auto].
          destruct l1 as [|? [|? [|? l1]]]; simplify_eq/=; auto. by destruct l1. }
        rewrite !elem_of_cons, elem_of_nil in Hq.
        destruct Hc as [[-> ->]|[[-> ->]|[-> ->]]]; simplify_eq/=;
          destruct Hq as [->|[->|[->|[]]]]; unfold left_of in *; lra.
Qed.
Print Assumptions C91_small.
(** No points: the hull names a point all the same. *)
Theorem C91_refuted_empty : ∃ points tol l i, 0 < tol ∧
  calculate_convex_hull 1 points tol = Ok l ∧ i ∈ l ∧ points !! i = None.
Proof. exists [], 1, [0%nat], 0%nat. split_and!; [lra|done|left|done]. Qed.
Print Assumptions C91_refuted_empty.
Example ex91 : (∀ p, p ∈ square → tame p) ∧ (3 < length square)%nat.
Proof.
  split; [|simpl; lia]. intros p Hp. unfold tame. rewrite pow62.
  unfold square in Hp. rewrite !elem_of_cons, elem_of_nil in Hp.
  destruct Hp as [->|[->|[->|[->|[]]]]]; simpl; lra.
Qed.
