(** Normals and convexity of triangle meshes. *)
From Verif Require Import Outcome BoxModel GeoModel RotSpec RotProofs RayProofs TmeshModel TmeshSpec TmeshProofs.
From Coq Require Import Reals Lra Psatz.
Local Open Scope R_scope.

Lemma res_map_ok {A B} (f : A → res B) l r : res_map f l = Ok r → Forall2 (λ x y, f x = Ok y) l r.
Proof.
  revert r. induction l as [|x l IH]; intros r H; simpl in H; [injection H as <-; constructor|].
  apply bind_ok in H as (y & Hy & H). apply bind_ok in H as (r' & Hr & [= <-]). constructor; [done|by apply IH].
Qed.
Lemma res_map_total {A B} (f : A → res B) l : (∀ x, x ∈ l → ∃ y, f x = Ok y) → ∃ r, res_map f l = Ok r.
Proof.
  induction l as [|x l IH]; intros H; [by exists []|]. destruct IH as [r Hr]; [intros; apply H; by right|].
  destruct (H x) as [y Hy]; [by left|]. simpl. rewrite Hy. simpl. rewrite Hr. by eexists.
Qed.
Lemma at_ok {A} (l : list A) i x : at_ l i = Ok x ↔ l !! i = Some x.
Proof. unfold at_. destruct (l !! i); simpl; naive_solver. Qed.
Lemma normalize_len v : tiny < len v → normalize3 v = Ok (div3 v (len v)).
Proof. intros H. unfold normalize3. rewrite (proj2 (rltb_true _ _) H). done. Qed.
Lemma tiny_pos : 0 < tiny.
Proof. unfold tiny. lra. Qed.

(** The corners along a side and the twofold area *)
Lemma face_winds vs t i0 i1 w n : face_normal vs t = Ok n → winds t i0 i1 w →
  ∃ v0 v1 p, vs !! i0 = Some v0 ∧ vs !! i1 = Some v1 ∧ vs !! w = Some p ∧
    let X := cross3 (sub3 v1 v0) (sub3 p v0) in tiny < len X ∧ n = div3 X (len X) ∧ unit3 n.
Proof.
  intros H W. destruct t as [[a b] c]. unfold face_normal in H.
  apply bind_ok in H as (va & Ha & H). apply bind_ok in H as (vb & Hb & H). apply bind_ok in H as (vc & Hc & H).
  apply at_ok in Ha, Hb, Hc. apply normalize_ok in H as (T & E & U).
  destruct W as [[= -> -> ->]|[[= -> -> ->]|[= -> -> ->]]].
  - exists va, vb, vc. split_and!; try done. cbv zeta.
    assert (cross3 (sub3 vb va) (sub3 vc va) = cross3 (sub3 vb va) (sub3 vc vb)) as ->; [|done].
    apply v3_eq; unfold cross3, sub3; cbn [vx vy vz]; ring.
  - exists vb, vc, va. split_and!; try done. cbv zeta.
    assert (cross3 (sub3 vc vb) (sub3 va vb) = cross3 (sub3 vb va) (sub3 vc vb)) as ->; [|done].
    apply v3_eq; unfold cross3, sub3; cbn [vx vy vz]; ring.
  - exists vc, va, vb. split_and!; try done. cbv zeta.
    assert (cross3 (sub3 va vc) (sub3 vb vc) = cross3 (sub3 vb va) (sub3 vc vb)) as ->; [|done].
    apply v3_eq; unfold cross3, sub3; cbn [vx vy vz]; ring.
Qed.
Lemma len_vec0 : len vec0 = 0.
Proof. unfold len, lsq, dot3, vec0. simpl. replace (0 * 0 + 0 * 0 + 0 * 0) with 0 by ring. apply sqrt_0. Qed.
Lemma face_distinct vs t i0 i1 w n : face_normal vs t = Ok n → winds t i0 i1 w → i0 ≠ i1 ∧ i1 ≠ w ∧ w ≠ i0.
Proof.
  intros H W. destruct (face_winds vs t i0 i1 w n H W) as (v0 & v1 & p & H0 & H1 & Hp & T & _ & _).
  pose proof tiny_pos.
  assert (N : cross3 (sub3 v1 v0) (sub3 p v0) ≠ vec0) by (intros E; rewrite E, len_vec0 in T; lra).
  split_and!; intros ->; apply N.
  - rewrite H0 in H1. injection H1 as <-. apply v3_eq; unfold cross3, sub3, vec0; cbn [vx vy vz]; ring.
  - rewrite H1 in Hp. injection Hp as <-. apply v3_eq; unfold cross3, sub3, vec0; cbn [vx vy vz]; ring.
  - rewrite H0 in Hp. injection Hp as <-. apply v3_eq; unfold cross3, sub3, vec0; cbn [vx vy vz]; ring.
Qed.
Lemma one_side vs t i0 i1 w n j0 j1 w' : face_normal vs t = Ok n → winds t i0 i1 w → winds t j0 j1 w' →
  same_ends (j0, j1) (i0, i1) → j0 = i0 ∧ j1 = i1.
Proof.
  intros H W W' E. destruct (face_distinct vs t i0 i1 w n H W) as (D1 & D2 & D3).
  unfold same_ends in E. simpl in E. unfold winds in W, W'. naive_solver.
Qed.

Lemma init_parts vs ts m : initialize vs ts = Ok m →
  m_vertices m = vs ∧ m_tris m = ts ∧ Forall2 (λ t n, face_normal vs t = Ok n) ts (m_normals m) ∧
  in_range (length vs) ts ∧ good_edges ts (m_pairs m) (m_of m) (m_ends m) ∧
  ∃ r, Forall2 (λ x y, adjacent vs (m_normals m) (m_ends m) x = Ok y) (zip (sides 0 ts) (m_of m)) r ∧
    m_adjacent m = map fst r ∧
    m_convex m = foldl (λ l kc, <[kc.1 := kc.2]> l) (replicate (length (m_pairs m)) false) (map snd r).
Proof.
  intros H. unfold initialize in H. apply bind_ok in H as (ns & Hn & H). apply bind_ok in H as (s & Hs & H).
  apply bind_ok in H as (ends & He & H). apply bind_ok in H as (r & Hr & [= <-]). simpl.
  apply res_map_ok in Hn, Hr. pose proof (range_needed _ _ _ _ Hs) as R.
  destruct (edges_good _ _ R) as (s' & ends' & Hs' & He' & G). rewrite Hs in Hs'. injection Hs' as <-.
  rewrite He in He'. injection He' as <-. split_and!; try done. by exists r.
Qed.
Lemma normal_at vs ts ns f t : Forall2 (λ t n, face_normal vs t = Ok n) ts ns → ts !! f = Some t →
  ∃ n, ns !! f = Some n ∧ face_normal vs t = Ok n.
Proof. intros F H. destruct (Forall2_lookup_l _ _ _ _ _ F H) as (n & ? & ?). eauto. Qed.
Lemma perp_cross (a b : v3) : dot3 (div3 (cross3 a b) (len (cross3 a b))) a = 0.
Proof. unfold dot3, div3, cross3. cbn [vx vy vz]. unfold Rdiv. ring. Qed.
Lemma normal_perp vs t i0 i1 w n v0 v1 : face_normal vs t = Ok n → winds t i0 i1 w → vs !! i0 = Some v0 → vs !! i1 = Some v1 →
  dot3 n (sub3 v1 v0) = 0 ∧ unit3 n.
Proof.
  intros H W H0 H1. destruct (face_winds vs t i0 i1 w n H W) as (v0' & v1' & p & E0 & E1 & _ & _ & -> & U).
  rewrite H0 in E0. rewrite H1 in E1. injection E0 as <-. injection E1 as <-. split; [apply perp_cross|done].
Qed.
Lemma side_winds t i : (i < 3)%nat → ∃ w, winds t (nth_side t i).1 (nth_side t i).2 w.
Proof.
  destruct t as [[a b] c]. intros H. destruct i as [|[|[|]]]; [..|lia]; unfold winds; simpl; eauto 10.
Qed.
Lemma tilted_len n d : unit3 n → dot3 n d = 0 → 1 <= len (add3 n (scl (1 / 10) (cross3 n d))).
Proof.
  intros U D. unfold len. apply Rle_trans with (sqrt 1); [rewrite sqrt_1; lra|]. apply sqrt_le_1_alt.
  assert (E : lsq (add3 n (scl (1 / 10) (cross3 n d))) = lsq n + 1 / 100 * lsq (cross3 n d)).
  { unfold lsq, dot3, add3, scl, cross3. cbn [vx vy vz]. field. }
  pose proof (lsq_nonneg (cross3 n d)). assert (lsq n = 1) by exact U. rewrite E. lra.
Qed.

(** A tetrahedron as an orientation test *)
Lemma convex_sides na nb (d : v3) : dot3 na (cross3 nb (neg3 d)) = dot3 nb (cross3 na d).
Proof. unfold dot3, cross3, neg3. cbn [vx vy vz]. ring. Qed.
Lemma convex_height n d u : dot3 n d = 0 → 0 < len (cross3 d u) →
  dot3 (div3 (cross3 (neg3 d) u) (len (cross3 d u))) (cross3 n d) = lsq d * dot3 u n / len (cross3 d u).
Proof.
  intros D L. transitivity (dot3 (cross3 (neg3 d) u) (cross3 n d) / len (cross3 d u)).
  { unfold dot3, div3. cbn [vx vy vz]. field. lra. }
  f_equal. transitivity (lsq d * dot3 u n - dot3 n d * dot3 u d); [|rewrite D; ring].
  unfold lsq, dot3, cross3, neg3. cbn [vx vy vz]. ring.
Qed.
Lemma len_neg v : len (neg3 v) = len v.
Proof. unfold len, lsq, dot3, neg3. cbn [vx vy vz]. f_equal. ring. Qed.

Lemma writes_last (w : list (nat * bool)) k c : ∀ l0, (k < length l0)%nat → (∀ x, x ∈ w → x.1 = k → x.2 = c) →
  (l0 !! k = Some c ∨ ∃ x, x ∈ w ∧ x.1 = k) → foldl (λ l x, <[x.1 := x.2]> l) l0 w !! k = Some c.
Proof.
  induction w as [|x w IH]; intros l0 Hk Hc H; simpl.
  - destruct H as [H|(x & H & _)]; [done|]. by apply elem_of_nil in H.
  - apply IH; [by rewrite insert_length|intros; apply Hc; [by right|done]|].
    destruct (decide (x.1 = k)) as [E|E].
    + left. rewrite E, list_lookup_insert by done. f_equal. apply Hc; [by left|done].
    + rewrite list_lookup_insert_ne by done. destruct H as [H|(y & [->|Hy]%elem_of_cons & Ey)]; [by left|done|right; eauto].
Qed.
Lemma convex_writes vs ts m k q c : initialize vs ts = Ok m → m_pairs m !! k = Some q →
  (∀ f i0 i1 w t, ts !! f = Some t → winds t i0 i1 w → same_ends q (i0, i1) →
     ∀ y, adjacent vs (m_normals m) (m_ends m) ((f, i0, i1), k) = Ok y → y.2.2 = c) →
  m_convex m !! k = Some c.
Proof.
  intros H Hq HA. apply init_parts in H as (_ & _ & _ & _ & G & r & F & _ & ->).
  apply writes_last.
  - rewrite replicate_length. by eapply lookup_lt_Some.
  - intros x Hx Ek. apply elem_of_list_fmap in Hx as (y & -> & Hy). apply elem_of_list_lookup in Hy as [n Hn].
    destruct (Forall2_lookup_r _ _ _ _ _ F Hn) as ([[[f i0] i1] k'] & Hz & Ha).
    apply lookup_zip_with_Some in Hz as (z & k'' & [= <- <-] & Hs & Ho).
    assert (k' = k) as ->.
    { unfold adjacent in Ha. apply bind_ok in Ha as ([[a b] c0] & _ & Ha). apply bind_ok in Ha as (v0 & _ & Ha).
      apply bind_ok in Ha as (v1 & _ & Ha). apply bind_ok in Ha as (nn & _ & Ha).
      destruct (_ =? f)%nat in Ha; [apply bind_ok in Ha as (z & _ & [= <-])|apply bind_ok in Ha as (z & _ & [= <-])]; done. }
    destruct (g_raw _ _ _ _ G _ _ _ _ Hs) as (k2 & q2 & O2 & P2 & E2). rewrite Ho in O2. injection O2 as <-.
    rewrite Hq in P2. injection P2 as <-.
    apply elem_of_list_lookup_2 in Hs. apply sides_elem in Hs as (f' & t & w & -> & Ht & W).
    by eapply (HA f' i0 i1 w t).
  - right. destruct (g_real _ _ _ _ G _ _ Hq) as (f & t & w & Ht & W).
    assert (Hs : (f, q.1, q.2) ∈ sides 0 ts) by (apply sides_elem; by exists f, t, w).
    apply elem_of_list_lookup in Hs as [n Hn]. destruct (g_raw _ _ _ _ G _ _ _ _ Hn) as (k2 & q2 & O2 & P2 & E2).
    assert (k2 = k) as ->.
    { apply (g_once _ _ _ _ G k2 k q2 q P2 Hq). by destruct q. }
    assert (Hz : zip (sides 0 ts) (m_of m) !! n = Some ((f, q.1, q.2), k)).
    { apply lookup_zip_with_Some. eauto. }
    destruct (Forall2_lookup_l _ _ _ _ _ F Hz) as (y & Hy & Ha).
    exists y.2. split; [apply elem_of_list_fmap; exists y; split; [done|by eapply elem_of_list_lookup_2]|].
    unfold adjacent in Ha. apply bind_ok in Ha as ([[a b] c0] & _ & Ha). apply bind_ok in Ha as (v0 & _ & Ha).
    apply bind_ok in Ha as (v1 & _ & Ha). apply bind_ok in Ha as (nn & _ & Ha).
    destruct (_ =? f)%nat in Ha; [apply bind_ok in Ha as (z & _ & [= <-])|apply bind_ok in Ha as (z & _ & [= <-])]; done.
Qed.
