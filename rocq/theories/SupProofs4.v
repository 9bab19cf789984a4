From Verif Require Import Outcome BoxModel GeoModel RotSpec RotProofs NearModel NearSpec NearProofs RayModel RaySpec RayProofs RayProofs2 RayProofs3 SupModel SupSpec SupProofs SupProofs2 SupProofs3.
From Coq Require Import Reals Lra Psatz Lia.
Local Open Scope R_scope.

(** * Climbing over the vertices of a polyhedron *)
Lemma lookup_all (ni : list nat) ks : (∀ k, k ∈ ks → (k < length ni)%nat) →
  ∃ l, foldr (λ k r, l ← r; j ← opt_res (ni !! k); Ok (j :: l)) (Ok []) ks = Ok l ∧
    ∀ j, j ∈ l ↔ ∃ k, k ∈ ks ∧ ni !! k = Some j.
Proof.
  induction ks as [|k ks IH]; intros H; simpl.
  - exists []. split; [done|]. intros j. split; [intros Hj; inversion Hj|intros (k & Hk & _); inversion Hk].
  - destruct IH as (l & E & Hl); [intros; apply H; set_solver|]. rewrite E. cbn [mbind res_bind].
    destruct (lookup_lt_is_Some_2 ni k) as [j Ej]; [apply H; set_solver|]. rewrite Ej. cbn. exists (j :: l). split; [done|].
    intros j'. rewrite elem_of_cons, Hl. split.
    + intros [->|(k' & Hk' & E')]; [exists k|exists k']; (split; [set_solver|done]).
    + intros (k' & [->|Hk']%elem_of_cons & E'); [left; congruence|right; exists k'; done].
Qed.
Lemma neighbors_ok n ns ni i : table_ok n ns ni → (i < n)%nat →
  ∃ l, neighbors ns ni i = Ok l ∧ (∀ j, j ∈ l ↔ adjacent ns ni i j) ∧ (∀ j, j ∈ l → (j < n)%nat).
Proof.
  intros (L & T1 & T2) Hi. destruct (lookup_lt_is_Some_2 ns i) as [a Ea]; [lia|]. destruct (lookup_lt_is_Some_2 ns (S i)) as [b Eb]; [lia|].
  pose proof (T1 i a b Ea Eb) as Hb. destruct (lookup_all ni (seq a (b - a))) as (l & E & Hl).
  { intros k Hk. apply elem_of_seq in Hk. lia. }
  exists l. unfold neighbors. rewrite Ea, Eb. cbn [mbind res_bind opt_res]. split; [done|]. split.
  - intros j. rewrite Hl. split.
    + intros (k & Hk & Ej). apply elem_of_seq in Hk. exists a, b, k. repeat split; try done; lia.
    + intros (a' & b' & k & Ea' & Eb' & Hk & Ej). exists k. split; [apply elem_of_seq; simplify_eq; lia|done].
  - intros j Hj. apply Hl in Hj as (k & _ & Ej). eauto.
Qed.

Lemma climb_scan_ok vs d l i v stop : vs !! i = Some v → (∀ j, j ∈ l → (j < length vs)%nat) →
  ∃ i' v' stop', climb_scan vs d l (i, dot3 v d, stop) = Ok (i', dot3 v' d, stop') ∧ vs !! i' = Some v' ∧
    dot3 v d <= dot3 v' d ∧ (∀ j w, j ∈ l → vs !! j = Some w → dot3 w d <= dot3 v' d) ∧
    (stop' = true → stop = true ∧ i' = i) ∧ (stop' = false → stop = false ∨ dot3 v d < dot3 v' d).
Proof.
  revert i v stop. induction l as [|j l IH]; intros i v stop Ev Hl; simpl.
  - exists i, v, stop. split; [done|]. split; [done|]. split; [lra|]. split; [intros j w Hj; inversion Hj|]. auto.
  - destruct (lookup_lt_is_Some_2 vs j) as [w Ew]; [apply Hl; set_solver|]. rewrite Ew. cbn [mbind res_bind opt_res].
    destruct (rltb (dot3 v d) (dot3 w d)) eqn:E.
    + apply rltb_true in E. destruct (IH j w false Ew) as (i' & v' & stop' & R & A & B & C & D & F); [intros; apply Hl; set_solver|].
      exists i', v', stop'. split; [done|]. split; [done|]. split; [lra|]. split; [|split].
      * intros j' w' [->|Hj]%elem_of_cons Ew'; [simplify_eq; done|eauto].
      * intros ->. destruct D as [D _]; done.
      * intros _. right. lra.
    + apply rltb_false in E. destruct (IH i v stop Ev) as (i' & v' & stop' & R & A & B & C & D & F); [intros; apply Hl; set_solver|].
      exists i', v', stop'. split; [done|]. split; [done|]. split; [lra|]. split; [|split; done].
      intros j' w' [->|Hj]%elem_of_cons Ew'; [simplify_eq; lra|eauto].
Qed.

Fixpoint above (vs : list v3) (d : v3) (m : R) : nat :=
  match vs with [] => 0%nat | v :: vs => ((if rltb m (dot3 v d) then 1 else 0) + above vs d m)%nat end.
Lemma above_le vs d m : (above vs d m <= length vs)%nat.
Proof. induction vs as [|v vs IH]; simpl; [lia|]. destruct (rltb m (dot3 v d)); lia. Qed.
Lemma above_mono vs d m m' : m <= m' → (above vs d m' <= above vs d m)%nat.
Proof.
  intros H. induction vs as [|v vs IH]; simpl; [lia|].
  destruct (rltb m' (dot3 v d)) eqn:E'; destruct (rltb m (dot3 v d)) eqn:E; try lia.
  apply rltb_true in E'. apply rltb_false in E. lra.
Qed.
Lemma above_lt vs d m v : v ∈ vs → m < dot3 v d → (above vs d (dot3 v d) < above vs d m)%nat.
Proof.
  intros Hv Hm. induction vs as [|w vs IH]; [inversion Hv|]. simpl. pose proof (above_mono vs d m (dot3 v d) ltac:(lra)).
  apply elem_of_cons in Hv as [->|Hv].
  - destruct (rltb (dot3 w d) (dot3 w d)) eqn:E; [apply rltb_true in E; lra|]. destruct (rltb m (dot3 w d)) eqn:E2; [lia|apply rltb_false in E2; lra].
  - specialize (IH Hv). destruct (rltb (dot3 v d) (dot3 w d)) eqn:E'; destruct (rltb m (dot3 w d)) eqn:E; try lia.
    apply rltb_true in E'. apply rltb_false in E. lra.
Qed.
Lemma climb_ok vs ns ni d fuel i v : table_ok (length vs) ns ni → vs !! i = Some v → (above vs d (dot3 v d) < fuel)%nat →
  ∃ i' v', climb fuel vs ns ni d i (dot3 v d) = Ok (dot3 v' d) ∧ vs !! i' = Some v' ∧ dot3 v d <= dot3 v' d ∧
    ∀ j w, adjacent ns ni i' j → vs !! j = Some w → dot3 w d <= dot3 v' d.
Proof.
  intros T. revert i v. induction fuel as [|fuel IH]; intros i v Ev Hf; [lia|]. simpl.
  destruct (neighbors_ok _ _ _ i T (lookup_lt_Some _ _ _ Ev)) as (l & El & Hl & Hr). rewrite El. cbn [mbind res_bind].
  destruct (climb_scan_ok vs d l i v true Ev Hr) as (i' & v' & stop' & R & A & B & C & D & F). rewrite R. cbn [mbind res_bind].
  destruct stop'.
  - destruct D as [_ ->]; [done|]. assert (v' = v) as -> by congruence. exists i, v. split; [done|]. split; [done|]. split; [lra|].
    intros j w Hj Ew. apply (C j); [apply Hl; done|done].
  - destruct F as [F|F]; [done..|]. 
    destruct (IH i' v' A) as (i2 & v2 & R2 & A2 & B2 & C2).
    { pose proof (above_lt vs d (dot3 v d) v' (elem_of_list_lookup_2 _ _ _ A) F). lia. }
    exists i2, v2. split; [done|]. split; [done|]. split; [lra|done].
Qed.
Lemma polyhedron_local vs ns ni d : vs ≠ [] → table_ok (length vs) ns ni →
  ∃ i v, polyhedron_projection vs ns ni d = Ok (dot3 v d) ∧ vs !! i = Some v ∧
    ∀ j w, adjacent ns ni i j → vs !! j = Some w → dot3 w d <= dot3 v d.
Proof.
  intros Hne T. destruct vs as [|v0 vs0] eqn:Evs; [done|]. rewrite <- Evs in *. assert (E0 : vs !! 0%nat = Some v0) by (rewrite Evs; done).
  unfold polyhedron_projection. rewrite E0. cbn [mbind res_bind opt_res]. unfold assert_. destruct T as [L T']. rewrite bool_decide_eq_true_2 by done. cbn [mbind res_bind].
  destruct (climb_ok vs ns ni d (S (length vs)) 0%nat v0) as (i & v & A & B & _ & C); [done|done| |].
  { pose proof (above_le vs d (dot3 v0 d)). lia. }
  exists i, v. done.
Qed.
Lemma cone_le (G : v3 → Prop) d x : (∀ g, G g → dot3 g d <= 0) → cone G x → dot3 x d <= 0.
Proof.
  intros H. induction 1 as [|c g x Hc Hg _ IH]; [unfold dot3; simpl; lra|]. rewrite dot_add_l, dot_scl_l. specialize (H g Hg). nra.
Qed.
Lemma polyhedron_global vs ns ni d : vs ≠ [] → table_ok (length vs) ns ni → edges_span vs ns ni →
  ∃ p, polyhedron_projection vs ns ni d = Ok p ∧ is_support (hull vs) d p.
Proof.
  intros Hne T Sp. destruct (polyhedron_local vs ns ni d Hne T) as (i & v & E & Ev & Loc). exists (dot3 v d). split; [done|].
  apply hull_support; [|exists v; split; [eapply elem_of_list_lookup_2|]; done].
  intros w Hw. apply elem_of_list_lookup_1 in Hw as [j Ew]. pose proof (Sp i j v w Ev Ew) as C.
  apply (cone_le _ d) in C; [rewrite dot_sub_l in C; lra|]. intros g (k & u & Ha & Eu & ->). rewrite dot_sub_l. specialize (Loc k u Ha Eu). lra.
Qed.

(** * Features of triangles *)
Lemma abs_lt_iff x t : rltb (Rabs x) t = true → - t < x < t.
Proof. intros H. apply rltb_true in H. unfold Rabs in H. destruct Rcase_abs; lra. Qed.
Lemma abs_ge_iff x t : rltb (Rabs x) t = false → x <= - t ∨ t <= x.
Proof. intros H. apply rltb_false in H. unfold Rabs in H. destruct Rcase_abs; lra. Qed.
Lemma triangle_feature_ok v0 v1 v2 pos dir t f0 k0 : 0 < t →
  let P v := dot3 (sub3 v pos) dir in
  - large_scalar < P v0 →
  let '(f, k, p) := triangle_feature v0 v1 v2 pos dir t f0 k0 in
  max_of3 (P v0) (P v1) (P v2) - t < p <= max_of3 (P v0) (P v1) (P v2) ∧
  match f with
  | FVertex => (k < 3)%nat ∧ p = P (pick3 k v0 v1 v2) ∧
      P (pick3 k v1 v2 v0) <= p - t ∧ P (pick3 k v2 v0 v1) <= p - t
  | FEdge => (k < 3)%nat ∧ p - t < P (pick3 k v0 v1 v2) < p + t ∧ p - t < P (pick3 k v1 v2 v0) < p + t ∧
      P (pick3 k v2 v0 v1) <= p - t
  | FFace => p = max_of3 (P v0) (P v1) (P v2) ∧ p - 2 * t < P v0 ∧ p - 2 * t < P v1 ∧ p - 2 * t < P v2
  end.
Proof.
  intros Ht P H0. unfold triangle_feature. simpl foldl. unfold feature_step. fold (P v0) (P v1) (P v2). simpl (bool_decide _). cbn [andb].
  clearbody P. remember (P v0) as p0 eqn:Q0. remember (P v1) as p1 eqn:Q1. remember (P v2) as p2 eqn:Q2.
  assert (rltb (- large_scalar) p0 = true) as -> by (apply rltb_true; done). cbn -[Rmax max_of3].
  unfold max_of3.
  destruct (rltb (Rabs (p1 - p0)) t) eqn:E1; [apply abs_lt_iff in E1|apply abs_ge_iff in E1].
  - cbn -[Rmax]. pose proof (Rmax_l p1 p0). pose proof (Rmax_r p1 p0).
    destruct (rltb (Rabs (p2 - Rmax p1 p0)) t) eqn:E2; [apply abs_lt_iff in E2|apply abs_ge_iff in E2].
    + cbn -[Rmax]. rewrite ?(bool_decide_eq_false_2 (1 = 0)%nat), ?(bool_decide_eq_true_2 (0 = 0)%nat) by lia; cbn -[Rmax]; rewrite <- ?Q0, <- ?Q1, <- ?Q2; destruct E1, E2; unfold Rmax in *; repeat (destruct Rle_dec); repeat split; try lia; lra.
    + destruct (rltb (Rmax p1 p0) p2) eqn:E3; [apply rltb_true in E3|apply rltb_false in E3]; cbn -[Rmax];
        rewrite ?(bool_decide_eq_false_2 (1 = 0)%nat), ?(bool_decide_eq_true_2 (0 = 0)%nat) by lia; cbn -[Rmax]; rewrite <- ?Q0, <- ?Q1, <- ?Q2; destruct E1, E2; unfold Rmax in *; repeat (destruct Rle_dec); repeat split; try lia; lra.
  - destruct (rltb p0 p1) eqn:E3; [apply rltb_true in E3|apply rltb_false in E3].
    + destruct (rltb (Rabs (p2 - p1)) t) eqn:E2; [apply abs_lt_iff in E2|apply abs_ge_iff in E2].
      * cbn -[Rmax]. rewrite ?(bool_decide_eq_false_2 (1 = 0)%nat), ?(bool_decide_eq_true_2 (0 = 0)%nat) by lia; cbn -[Rmax]; rewrite <- ?Q0, <- ?Q1, <- ?Q2; destruct E1, E2; unfold Rmax in *; repeat (destruct Rle_dec); repeat split; try lia; lra.
      * destruct (rltb p1 p2) eqn:E4; [apply rltb_true in E4|apply rltb_false in E4]; cbn -[Rmax];
          rewrite ?(bool_decide_eq_false_2 (1 = 0)%nat), ?(bool_decide_eq_true_2 (0 = 0)%nat) by lia; cbn -[Rmax]; rewrite <- ?Q0, <- ?Q1, <- ?Q2; destruct E1, E2; unfold Rmax in *; repeat (destruct Rle_dec); repeat split; try lia; lra.
    + destruct (rltb (Rabs (p2 - p0)) t) eqn:E2; [apply abs_lt_iff in E2|apply abs_ge_iff in E2].
      * cbn -[Rmax]. rewrite ?(bool_decide_eq_false_2 (1 = 0)%nat), ?(bool_decide_eq_true_2 (0 = 0)%nat) by lia; cbn -[Rmax]; rewrite <- ?Q0, <- ?Q1, <- ?Q2; destruct E1, E2; unfold Rmax in *; repeat (destruct Rle_dec); repeat split; try lia; lra.
      * destruct (rltb p0 p2) eqn:E4; [apply rltb_true in E4|apply rltb_false in E4]; cbn -[Rmax];
          rewrite ?(bool_decide_eq_false_2 (1 = 0)%nat), ?(bool_decide_eq_true_2 (0 = 0)%nat) by lia; cbn -[Rmax]; rewrite <- ?Q0, <- ?Q1, <- ?Q2; destruct E1, E2; unfold Rmax in *; repeat (destruct Rle_dec); repeat split; try lia; lra.
Qed.

(** * Planes *)
Lemma v3_eqb_true v w : v3_eqb v w = true → v = w.
Proof.
  unfold v3_eqb, reqb. intros H. apply andb_true_iff in H as [H H3]. apply andb_true_iff in H as [H1 H2].
  repeat destruct Req_EM_T; try done. destruct v, w; simpl in *; congruence.
Qed.
Lemma plane_aabb_ok n k x : below n k x → near3 99999 x (scl k n) → in_aabb (plane_aabb n k) x.
Proof.
  intros B (N1 & N2 & N3). unfold below in B.
  assert (K : ∀ y, Rabs y <= 99999 → -99999 <= y <= 99999) by (intros y Hy; unfold Rabs in Hy; destruct Rcase_abs; lra).
  apply K in N1, N2, N3. clear K. unfold plane_aabb.
  destruct (v3_eqb n ex) eqn:E1; [apply v3_eqb_true in E1; subst n; rewrite dot_ex in B; unfold in_aabb, le3, scl, add3, ex in *; simpl in *; lra|].
  destruct (v3_eqb n (neg3 ex)) eqn:E2; [apply v3_eqb_true in E2; subst n; rewrite dot_neg, dot_ex in B; unfold in_aabb, le3, scl, add3, ex in *; simpl in *; lra|].
  destruct (v3_eqb n ey) eqn:E3; [apply v3_eqb_true in E3; subst n; rewrite dot_ey in B; unfold in_aabb, le3, scl, add3, ey in *; simpl in *; lra|].
  destruct (v3_eqb n (neg3 ey)) eqn:E4; [apply v3_eqb_true in E4; subst n; rewrite dot_neg, dot_ey in B; unfold in_aabb, le3, scl, add3, ey in *; simpl in *; lra|].
  destruct (v3_eqb n ez) eqn:E5; [apply v3_eqb_true in E5; subst n; rewrite dot_ez in B; unfold in_aabb, le3, scl, add3, ez in *; simpl in *; lra|].
  destruct (v3_eqb n (neg3 ez)) eqn:E6; [apply v3_eqb_true in E6; subst n; rewrite dot_neg, dot_ez in B; unfold in_aabb, le3, scl, add3, ez in *; simpl in *; lra|].
  unfold in_aabb, le3, scl, add3 in *; simpl in *; lra.
Qed.
