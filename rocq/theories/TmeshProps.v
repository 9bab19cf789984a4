(** Properties of triangle meshes: C94-C96. *)
From Verif Require Import Outcome BoxModel GeoModel NearModel RotSpec RotProofs RayProofs TmeshModel TmeshSpec TmeshProofs TmeshProofs2.
From Coq Require Import Reals Lra Psatz.
Local Open Scope R_scope.

(** ** C94: edges *)
(** A mesh is accepted exactly if its indices are in range and no triangle is
    degenerate. *)
Theorem C94_accepted vs ts : (∃ m, initialize vs ts = Ok m) ↔
  in_range (length vs) ts ∧
  ∀ f a b c va vb vc, ts !! f = Some (a, b, c) → vs !! a = Some va → vs !! b = Some vb → vs !! c = Some vc →
    tiny < len (cross3 (sub3 vb va) (sub3 vc va)).
Proof.
  split.
  - intros [m H]. apply init_parts in H as (_ & _ & N & R & _). split; [done|].
    intros f a b c va vb vc Hf Ha Hb Hc. destruct (normal_at _ _ _ _ _ N Hf) as (n & _ & Hn).
    destruct (face_winds vs _ a b c n Hn) as (v0 & v1 & p & E0 & E1 & Ep & T & _); [by left|]. congruence.
  - intros [R D]. unfold initialize.
    assert (L : ∀ f a b c, ts !! f = Some (a, b, c) → ∃ va vb vc, vs !! a = Some va ∧ vs !! b = Some vb ∧ vs !! c = Some vc).
    { intros f a b c Hf. destruct (R f a b c Hf) as (Ra & Rb & Rc).
      destruct (lookup_lt_is_Some_2 vs a Ra), (lookup_lt_is_Some_2 vs b Rb), (lookup_lt_is_Some_2 vs c Rc). eauto 10. }
    assert (FN : ∀ f t, ts !! f = Some t → ∃ n, face_normal vs t = Ok n).
    { intros f [[a b] c] Hf. destruct (L f a b c Hf) as (va & vb & vc & Ha & Hb & Hc).
      pose proof (D f a b c va vb vc Hf Ha Hb Hc) as T. unfold face_normal, at_. rewrite Ha, Hb, Hc. simpl.
      assert (E : cross3 (sub3 vb va) (sub3 vc vb) = cross3 (sub3 vb va) (sub3 vc va))
        by (apply v3_eq; unfold cross3, sub3; cbn [vx vy vz]; ring).
      rewrite E, normalize_len by done. by eexists. }
    destruct (res_map_total (face_normal vs) ts) as [ns Hns].
    { intros t [f Hf]%elem_of_list_lookup. eauto. }
    rewrite Hns. cbn [mbind res_bind]. apply res_map_ok in Hns.
    destruct (edges_good _ _ R) as (s & ends & Hs & He & G). rewrite Hs. cbn [mbind res_bind]. rewrite He. cbn [mbind res_bind].
    destruct (res_map_total (adjacent vs ns ends) (zip (sides 0 ts) (e_of s))) as [r Hr]; [|rewrite Hr; by eexists].
    intros x [n Hx]%elem_of_list_lookup. apply lookup_zip_with_Some in Hx as ([[f i0] i1] & k & -> & Hsd & Ho).
    destruct (g_raw _ _ _ _ G _ _ _ _ Hsd) as (k' & q & Ho' & Hq & Eq). rewrite Ho in Ho'. injection Ho' as <-.
    apply elem_of_list_lookup_2, sides_elem in Hsd as (f' & t & w & -> & Ht & W). simpl.
    destruct (normal_at _ _ _ _ _ Hns Ht) as (nf & Hnf & Fn).
    destruct (face_winds _ _ _ _ _ _ Fn W) as (v0 & v1 & p & H0 & H1 & _ & _ & _ & U).
    destruct (lookup_lt_is_Some_2 ends k) as [[[a b] c] Hk].
    { rewrite (g_len _ _ _ _ G). by eapply lookup_lt_Some. }
    destruct (g_ends _ _ _ _ G _ _ _ _ _ Hq Hk) as (Sa & Sb & _).
    unfold adjacent, at_. rewrite Hk. cbn [opt_res mbind res_bind]. rewrite H0, H1, Hnf. cbn [opt_res mbind res_bind].
    destruct (_ =? f')%nat.
    + rewrite normalize_len; [cbn [mbind res_bind]; by eexists|].
      destruct (normal_perp _ _ _ _ _ _ _ _ Fn W H0 H1) as [P _]. pose proof (tilted_len _ _ U P). unfold tiny. lra.
    + assert (∃ o, ns !! (if (a =? f')%nat then b else a) = Some o) as [o ->]; [|cbn [opt_res mbind res_bind]; by eexists].
      destruct Sa as (ta & _ & _ & _ & Ta & _), Sb as (tb & _ & _ & _ & Tb & _).
      destruct (normal_at _ _ _ _ _ Hns Ta) as (na & Na & _), (normal_at _ _ _ _ _ Hns Tb) as (nb & Nb & _).
      destruct (a =? f')%nat; eauto.
Qed.
Print Assumptions C94_accepted.

(** Every side of every face belongs to exactly one edge, and every edge is a
    side. *)
Theorem C94_edges vs ts m : initialize vs ts = Ok m →
  (∀ f t i, ts !! f = Some t → (i < 3)%nat →
     ∃ k q, m_of m !! (3 * f + i)%nat = Some k ∧ m_pairs m !! k = Some q ∧ same_ends q (nth_side t i)) ∧
  (∀ k k' q q', m_pairs m !! k = Some q → m_pairs m !! k' = Some q' → same_ends q q' → k = k') ∧
  (∀ k q, m_pairs m !! k = Some q → ∃ f, has_side ts f q) ∧
  length (m_ends m) = length (m_pairs m).
Proof.
  intros H. apply init_parts in H as (_ & _ & _ & _ & G & _). split_and!; try apply G.
  intros k q Hq. destruct (g_real _ _ _ _ G _ _ Hq) as (f & t & w & Ht & W). exists f, t, q.1, q.2, w.
  split_and!; try done. left. by destruct q.
Qed.
Print Assumptions C94_edges.
(** The faces of an edge are the first and the last face with that side; they
    are the same exactly for boundary edges, which have a single face. *)
Theorem C94_faces vs ts m k q a b c : initialize vs ts = Ok m → m_pairs m !! k = Some q → m_ends m !! k = Some (a, b, c) →
  has_side ts a q ∧ has_side ts b q ∧ (∀ f, has_side ts f q → (a <= f <= b)%nat) ∧
  (c = true ↔ a = b) ∧ (c = true ↔ ∀ f g, has_side ts f q → has_side ts g q → f = g).
Proof.
  intros H Hq Hk. apply init_parts in H as (_ & _ & _ & _ & G & _).
  destruct (g_ends _ _ _ _ G _ _ _ _ _ Hq Hk) as (A & B & C & D). split_and!; try done. rewrite D. split.
  - intros -> f g Hf Hg. pose proof (C f Hf). pose proof (C g Hg). lia.
  - intros E. by apply E.
Qed.
Print Assumptions C94_faces.
(** If at most two faces meet at the edge, they are all known. *)
Theorem C94_manifold vs ts m k q a b c : initialize vs ts = Ok m → m_pairs m !! k = Some q → m_ends m !! k = Some (a, b, c) →
  (∀ f g h, has_side ts f q → has_side ts g q → has_side ts h q → f = g ∨ g = h ∨ f = h) →
  ∀ f, has_side ts f q ↔ f = a ∨ f = b.
Proof.
  intros H Hq Hk M f. destruct (C94_faces _ _ _ _ _ _ _ _ H Hq Hk) as (A & B & C & D & E). split; [|by intros [->| ->]].
  intros Hf. destruct (M a b f A B Hf) as [->|[->| ->]]; auto. pose proof (C f Hf). lia.
Qed.
Print Assumptions C94_manifold.

Definition fan_vs : list v3 := [vec0; ex; ey; ez; neg3 ey].
Definition fan_ts : list tri := [(0, 1, 2); (0, 1, 3); (0, 1, 4)]%nat.
Lemma len_1 v : lsq v = 1 → tiny < len v.
Proof. intros E. unfold len. rewrite E, sqrt_1. unfold tiny. lra. Qed.
Ltac unit_len := apply len_1; unfold lsq, dot3, cross3, sub3, neg3, vec0, ex, ey, ez; cbn [vx vy vz]; ring.
Lemma fan_ok : ∃ m, initialize fan_vs fan_ts = Ok m.
Proof.
  apply C94_accepted. split.
  - intros f a b c Hf. destruct f as [|[|[|]]]; simpl in Hf; try done; injection Hf as <- <- <-; simpl; lia.
  - intros f a b c va vb vc Hf Ha Hb Hc. destruct f as [|[|[|]]]; simpl in Hf; try done; injection Hf as <- <- <-;
      simpl in Ha, Hb, Hc; injection Ha as <-; injection Hb as <-; injection Hc as <-; unit_len.
Qed.
(** Of three faces at an edge the middle one is forgotten. *)
Theorem C94_refuted_three : ∃ vs ts m k q a b c f, initialize vs ts = Ok m ∧ m_pairs m !! k = Some q ∧
  m_ends m !! k = Some (a, b, c) ∧ has_side ts f q ∧ f ≠ a ∧ f ≠ b.
Proof.
  destruct fan_ok as [m H]. exists fan_vs, fan_ts, m.
  destruct (C94_edges _ _ _ H) as (O & _ & _ & L). destruct (O 0%nat (0, 1, 2)%nat 0%nat eq_refl ltac:(lia)) as (k & q & _ & Hq & E).
  simpl in E. destruct (lookup_lt_is_Some_2 (m_ends m) k) as [[[a b] c] Hk].
  { rewrite L. by eapply lookup_lt_Some. }
  assert (S : ∀ f t, fan_ts !! f = Some t → has_side fan_ts f q).
  { intros f t Hf. exists t. destruct f as [|[|[|]]]; simpl in Hf; try done; injection Hf as <-; eexists _, _, _;
      (split; [done|]); (split; [left; reflexivity|done]). }
  destruct (C94_faces _ _ _ _ _ _ _ _ H Hq Hk) as (A & B & C & _).
  pose proof (C 0%nat (S 0%nat _ eq_refl)). pose proof (C 2%nat (S 2%nat _ eq_refl)).
  destruct B as (t & i0 & i1 & w & Ht & _). apply lookup_lt_Some in Ht. simpl in Ht.
  exists k, q, a, b, c, 1%nat. split_and!; try done; [by eapply S|lia|lia].
Qed.
Print Assumptions C94_refuted_three.

(** ** C95: normals and convexity *)
Theorem C95_normals vs ts m f a b c va vb vc : initialize vs ts = Ok m → ts !! f = Some (a, b, c) →
  vs !! a = Some va → vs !! b = Some vb → vs !! c = Some vc →
  ∃ n L, m_normals m !! f = Some n ∧ unit3 n ∧ 0 < L ∧ cross3 (sub3 vb va) (sub3 vc va) = scl L n.
Proof.
  intros H Hf Ha Hb Hc. apply init_parts in H as (_ & _ & N & _). destruct (normal_at _ _ _ _ _ N Hf) as (n & Hn & Fn).
  destruct (face_winds vs _ a b c n Fn) as (v0 & v1 & p & E0 & E1 & Ep & T & En & U); [by left|].
  rewrite Ha in E0. rewrite Hb in E1. rewrite Hc in Ep. injection E0 as <-. injection E1 as <-. injection Ep as <-.
  pose proof tiny_pos. exists n, (len (cross3 (sub3 vb va) (sub3 vc va))). split_and!; try done; [lra|].
  rewrite En. set (X := cross3 _ _) in *. apply v3_eq; unfold scl, div3; cbn [vx vy vz]; field; lra.
Qed.
Print Assumptions C95_normals.
(** The adjacent normal of a side is that of the other face of its edge; at the
    boundary it points away from the face, backwards and outwards. *)
Theorem C95_adjacent vs ts m f t i k a b c n v0 v1 : initialize vs ts = Ok m → ts !! f = Some t → (i < 3)%nat →
  m_of m !! (3 * f + i)%nat = Some k → m_ends m !! k = Some (a, b, c) → m_normals m !! f = Some n →
  vs !! (nth_side t i).1 = Some v0 → vs !! (nth_side t i).2 = Some v1 →
  ∃ adj, m_adjacent m !! (3 * f + i)%nat = Some adj ∧
    (c = false → m_normals m !! (if (a =? f)%nat then b else a) = Some adj) ∧
    (c = true → unit3 adj ∧ dot3 adj n < 0 ∧ dot3 adj (cross3 n (sub3 v1 v0)) < 0 ∧ dot3 adj (sub3 v1 v0) = 0).
Proof.
  intros H Hf Hi Hk He Hn H0 H1. pose proof (init_parts _ _ _ H) as (_ & _ & N & _ & G & r & F & -> & _).
  pose proof (sides_lookup ts 0 f i t Hf Hi) as Hs. change (0 + f)%nat with f in Hs.
  assert (Hz : zip (sides 0 ts) (m_of m) !! (3 * f + i)%nat = Some ((f, (nth_side t i).1, (nth_side t i).2), k)).
  { apply lookup_zip_with_Some. eauto. }
  destruct (Forall2_lookup_l _ _ _ _ _ F Hz) as (y & Hy & Ha). exists y.1.
  split; [by rewrite list_lookup_fmap, Hy|].
  destruct (g_raw _ _ _ _ G _ _ _ _ Hs) as (k' & q & O' & Hq & Eq). rewrite Hk in O'. injection O' as <-.
  destruct (g_ends _ _ _ _ G _ _ _ _ _ Hq He) as (Sa & Sb & Lo & B).
  destruct (side_winds t i Hi) as [w W].
  assert (Sf : has_side ts f q) by (exists t, (nth_side t i).1, (nth_side t i).2, w; done).
  pose proof (Lo f Sf) as Lf. unfold adjacent, at_ in Ha. rewrite He, H0, H1, Hn in Ha. cbn [opt_res mbind res_bind] in Ha.
  destruct c.
  - split; [done|]. intros _. assert (a = b) as -> by (by apply B). assert (b = f) as -> by lia.
    rewrite Nat.eqb_refl, Nat.eqb_refl in Ha. apply bind_ok in Ha as (z & Hz' & [= <-]).
    destruct (normal_at _ _ _ _ _ N Hf) as (n' & Hn' & Fn). rewrite Hn in Hn'. injection Hn' as <-.
    destruct (normal_perp _ _ _ _ _ _ _ _ Fn W H0 H1) as [P U].
    destruct (face_winds _ _ _ _ _ _ Fn W) as (v0' & v1' & p & E0 & E1 & _ & T & _ & _).
    rewrite H0 in E0. rewrite H1 in E1. injection E0 as <-. injection E1 as <-.
    set (d := sub3 v1 v0) in *. apply normalize_ok in Hz' as (L & Ez & Uz). cbn [fst].
    set (l := len _) in *. pose proof tiny_pos. 
    assert (D0 : lsq d ≠ 0).
    { intros E. apply lsq_zero in E. rewrite E in T.
      assert (cross3 vec0 (sub3 p v0) = vec0) as X by (apply v3_eq; unfold cross3, vec0; cbn [vx vy vz]; ring).
      rewrite X, len_vec0 in T. lra. }
    pose proof (lsq_nonneg d) as Dn.
    assert (Un : dot3 n n = 1) by exact U.
    assert (Cn : dot3 (cross3 n d) (cross3 n d) = lsq d).
    { transitivity (dot3 n n * lsq d - dot3 n d * dot3 n d); [unfold lsq, dot3, cross3; cbn [vx vy vz]; ring|]. rewrite Un, P. ring. }
    assert (Il : 0 < / l) by (apply Rinv_0_lt_compat; lra).
    split_and!.
    + unfold unit3 in *. rewrite <- Uz. unfold dot3, neg3. cbn [vx vy vz]. ring.
    + assert (dot3 (neg3 z) n = - (/ l)) as ->; [|lra].
      rewrite Ez. transitivity (- (dot3 n n * / l)); [|rewrite Un; ring].
      unfold dot3, neg3, div3, add3, scl, cross3. cbn [vx vy vz]. unfold Rdiv. ring.
    + assert (dot3 (neg3 z) (cross3 n d) = - (1 / 10 * lsq d * / l)) as ->; [|nra].
      rewrite Ez, <- Cn. 
      transitivity (- ((dot3 n (cross3 n d) + 1 / 10 * dot3 (cross3 n d) (cross3 n d)) * / l)).
      { unfold dot3, neg3, div3, add3, scl. cbn [vx vy vz]. unfold Rdiv. ring. }
      replace (dot3 n (cross3 n d)) with 0 by (unfold dot3, cross3; cbn [vx vy vz]; ring). ring.
    + rewrite Ez. transitivity (- (dot3 n d + 1 / 10 * dot3 (cross3 n d) d) * / l).
      { unfold dot3, neg3, div3, add3, scl. cbn [vx vy vz]. unfold Rdiv. ring. }
      rewrite P. replace (dot3 (cross3 n d) d) with 0 by (unfold dot3, cross3; cbn [vx vy vz]; ring). ring.
  - split; [|done]. intros _.
    assert (Hne : a ≠ b) by (intros E; by apply B in E).
    destruct (Nat.eqb_spec a f) as [->|Haf].
    + rewrite (proj2 (Nat.eqb_neq b f)) in Ha by done. apply bind_ok in Ha as (z & Hz' & [= <-]). by apply at_ok in Hz'.
    + rewrite (proj2 (Nat.eqb_neq a f)) in Ha by done. apply bind_ok in Ha as (z & Hz' & [= <-]). by apply at_ok in Hz'.
Qed.
Print Assumptions C95_adjacent.
Theorem C95_boundary vs ts m k q a b : initialize vs ts = Ok m → m_pairs m !! k = Some q → m_ends m !! k = Some (a, b, true) →
  m_convex m !! k = Some true.
Proof.
  intros H Hq He. apply (convex_writes vs ts m k q true H Hq). intros f i0 i1 w t Hf W E y Ha.
  destruct (C94_faces _ _ _ _ _ _ _ _ H Hq He) as (_ & _ & Lo & B & _). assert (a = b) as -> by (by apply B).
  assert (b = f) as ->. { assert (Sf : has_side ts f q) by (exists t, i0, i1, w; done). pose proof (Lo f Sf). lia. }
  unfold adjacent, at_ in Ha. rewrite He in Ha. cbn [opt_res mbind res_bind] in Ha. rewrite Nat.eqb_refl, Nat.eqb_refl in Ha.
  apply bind_ok in Ha as (v0 & _ & Ha). apply bind_ok in Ha as (v1 & _ & Ha). apply bind_ok in Ha as (nn & _ & Ha).
  by apply bind_ok in Ha as (z & _ & [= <-]).
Qed.
Print Assumptions C95_boundary.
(** An edge between two faces that wind alike is convex exactly if the corner of
    the one across the edge lies behind the plane of the other, by a tolerance:
    with d along the edge and u to the corner, |d|^2 (u.n) < -eps |d x u|. *)
Theorem C95_convex vs ts m k q a b i0 i1 ta tb wa wb v0 v1 pa pb na nb :
  initialize vs ts = Ok m → m_pairs m !! k = Some q → m_ends m !! k = Some (a, b, false) → same_ends q (i0, i1) →
  (∀ f, has_side ts f q → f = a ∨ f = b) →
  ts !! a = Some ta → ts !! b = Some tb → winds ta i0 i1 wa → winds tb i1 i0 wb →
  vs !! i0 = Some v0 → vs !! i1 = Some v1 → vs !! wa = Some pa → vs !! wb = Some pb →
  m_normals m !! a = Some na → m_normals m !! b = Some nb →
  let d := sub3 v1 v0 in let u := sub3 pb v0 in
  ∃ c, m_convex m !! k = Some c ∧
    (c = true ↔ lsq d * dot3 u na < - eps * len (cross3 d u)) ∧
    (c = true → dot3 (sub3 pb v0) na < 0 ∧ dot3 (sub3 pa v0) nb < 0).
Proof.
  intros H Hq He Eq M Ta Tb Wa Wb H0 H1 Hpa Hpb Hna Hnb d u.
  pose proof (init_parts _ _ _ H) as (_ & _ & N & _).
  destruct (normal_at _ _ _ _ _ N Ta) as (n' & Hn' & Fa). rewrite Hna in Hn'. injection Hn' as <-.
  destruct (normal_at _ _ _ _ _ N Tb) as (n' & Hn' & Fb). rewrite Hnb in Hn'. injection Hn' as <-.
  assert (Hne : a ≠ b).
  { destruct (C94_faces _ _ _ _ _ _ _ _ H Hq He) as (_ & _ & _ & B & _). intros E. by apply B in E. }
  exists (rltb (dot3 nb (cross3 na d)) (- eps)). split.
  { apply (convex_writes vs ts m k q _ H Hq). intros f j0 j1 w t Hf W E y Ha.
    assert (Sf : has_side ts f q) by (exists t, j0, j1, w; done).
    unfold adjacent, at_ in Ha. rewrite He in Ha. cbn [opt_res mbind res_bind] in Ha.
    destruct (M f Sf) as [->| ->].
    - rewrite Ta in Hf. injection Hf as <-.
      destruct (one_side vs ta i0 i1 wa na j0 j1 w Fa Wa W) as [-> ->]; [by eapply ends_trans; [apply ends_sym|]|].
      rewrite Nat.eqb_refl, H0, H1, Hna, (proj2 (Nat.eqb_neq b a)) in Ha by done.
      cbn [opt_res mbind res_bind] in Ha. rewrite Hnb in Ha. cbn [opt_res mbind res_bind] in Ha. injection Ha as <-. done.
    - rewrite Tb in Hf. injection Hf as <-.
      destruct (one_side vs tb i1 i0 wb nb j0 j1 w Fb Wb W) as [-> ->].
      { eapply ends_trans; [by apply ends_sym|]. eapply ends_trans; [exact Eq|]. by right. }
      rewrite (proj2 (Nat.eqb_neq a b)) in Ha by done. rewrite H0, H1, Hnb, (proj2 (Nat.eqb_neq a b)) in Ha by done.
      cbn [opt_res mbind res_bind] in Ha. rewrite Hna in Ha. cbn [opt_res mbind res_bind] in Ha. injection Ha as <-.
      cbn [snd]. f_equal. rewrite <- (convex_sides na nb d). do 2 f_equal.
      apply v3_eq; unfold d, sub3, neg3; cbn [vx vy vz]; ring. }
  destruct (normal_perp _ _ _ _ _ _ _ _ Fa Wa H0 H1) as [Pa _].
  destruct (normal_perp _ _ _ _ _ _ _ _ Fb Wb H1 H0) as [Pb _].
  destruct (face_winds _ _ _ _ _ _ Fb Wb) as (x1 & x0 & xp & X1 & X0 & Xp & Tl & Enb & _).
  rewrite H1 in X1. rewrite H0 in X0. rewrite Hpb in Xp. injection X1 as <-. injection X0 as <-. injection Xp as <-.
  destruct (face_winds _ _ _ _ _ _ Fa Wa) as (y0 & y1 & yp & Y0 & Y1 & Yp & Tla & Ena & _).
  rewrite H0 in Y0. rewrite H1 in Y1. rewrite Hpa in Yp. injection Y0 as <-. injection Y1 as <-. injection Yp as <-.
  pose proof tiny_pos as Tp. cbv zeta in Tl, Enb, Tla, Ena.
  assert (Xb : cross3 (sub3 v0 v1) (sub3 pb v1) = cross3 (neg3 d) u)
    by (apply v3_eq; unfold d, u, cross3, neg3, sub3; cbn [vx vy vz]; ring).
  assert (Xl : len (cross3 (neg3 d) u) = len (cross3 d u)).
  { rewrite <- (len_neg (cross3 d u)). f_equal. apply v3_eq; unfold cross3, neg3; cbn [vx vy vz]; ring. }
  rewrite Xb, Xl in Enb. rewrite Xb, Xl in Tl.
  assert (Hh : dot3 nb (cross3 na d) = lsq d * dot3 u na / len (cross3 d u)).
  { rewrite Enb. apply convex_height; [done|lra]. }
  assert (Ea : 0 < eps) by (unfold eps; lra).
  assert (Hs : dot3 nb (cross3 na d) < - eps ↔ lsq d * dot3 u na < - eps * len (cross3 d u)).
  { rewrite Hh. split; intros Hx.
    - apply Rmult_lt_compat_r with (r := len (cross3 d u)) in Hx; [|lra].
      replace (lsq d * dot3 u na / len (cross3 d u) * len (cross3 d u)) with (lsq d * dot3 u na) in Hx by (field; lra). lra.
    - apply Rmult_lt_reg_r with (r := len (cross3 d u)); [lra|].
      replace (lsq d * dot3 u na / len (cross3 d u) * len (cross3 d u)) with (lsq d * dot3 u na) by (field; lra). lra. }
  split; [by rewrite rltb_true|]. rewrite rltb_true. intros Hx.
  assert (Neg : ∀ e x l : R, 0 <= e → 0 < l → e * x / l < 0 → x < 0).
  { intros e x l He' Hl Hc. destruct (Rlt_dec x 0); [done|]. exfalso.
    assert (0 <= e * x) by (apply Rmult_le_pos; lra).
    assert (0 <= e * x / l) by (apply Rmult_le_pos; [done|]; left; by apply Rinv_0_lt_compat). lra. }
  split.
  - apply (Neg (lsq d) _ (len (cross3 d u))); [apply lsq_nonneg|lra|]. unfold u in *. rewrite <- Hh. lra.
  - set (ua := sub3 pa v0) in *.
    assert (Ha : dot3 na (cross3 nb (neg3 d)) = lsq d * dot3 ua nb / len (cross3 d ua)).
    { rewrite Ena. fold d.
      assert (Q : dot3 nb (neg3 d) = 0).
      { rewrite <- Pb. f_equal. apply v3_eq; unfold d, sub3, neg3; cbn [vx vy vz]; ring. }
      pose proof (convex_height nb (neg3 d) ua Q) as C. 
      assert (E1 : cross3 (neg3 (neg3 d)) ua = cross3 d ua) by (apply v3_eq; unfold cross3, neg3; cbn [vx vy vz]; ring).
      assert (E2 : len (cross3 (neg3 d) ua) = len (cross3 d ua)).
      { rewrite <- (len_neg (cross3 d ua)). f_equal. apply v3_eq; unfold cross3, neg3; cbn [vx vy vz]; ring. }
      assert (E3 : lsq (neg3 d) = lsq d) by (unfold lsq, dot3, neg3; cbn [vx vy vz]; ring).
      rewrite E1, E2, E3 in C. apply C. fold d in Tla. lra. }
    apply (Neg (lsq d) _ (len (cross3 d ua))); [apply lsq_nonneg|fold d in Tla; lra|].
    rewrite <- Ha, convex_sides. lra.
Qed.
Print Assumptions C95_convex.

(** ** C96: values of vertices on faces and edges *)
Definition blend (w0 w1 w2 h : R) (v0 v1 v2 n : v3) : v3 := add3 (add3 (add3 (scl w0 v0) (scl w1 v1)) (scl w2 v2)) (scl h n).
Lemma bary_ok v0 v1 v2 n w0 w1 w2 h : let X := cross3 (sub3 v1 v0) (sub3 v2 v0) in
  0 < len X → n = div3 X (len X) → w0 + w1 + w2 = 1 → barycentric v0 v1 v2 n (blend w0 w1 w2 h v0 v1 v2 n) = Ok (w0, w1, w2).
Proof.
  intros X L En Hw. assert (w1 = 1 - w0 - w2) as Ew by lra.
  assert (D : dot3 n X = len X).
  { rewrite En. transitivity (dot3 X X / len X); [unfold dot3, div3; cbn [vx vy vz]; field; lra|].
    change (dot3 X X) with (lsq X). rewrite <- len_sq. field. lra. }
  assert (D0 : dot3 (sub3 v0 v1) (cross3 (sub3 v2 v1) n) = - len X).
  { rewrite <- D. unfold X, dot3, sub3, cross3. cbn [vx vy vz]. ring. }
  assert (D1 : dot3 (sub3 v1 v2) (cross3 (sub3 v0 v2) n) = - len X).
  { rewrite <- D. unfold X, dot3, sub3, cross3. cbn [vx vy vz]. ring. }
  assert (N0 : dot3 (sub3 (blend w0 w1 w2 h v0 v1 v2 n) v1) (cross3 (sub3 v2 v1) n) = w0 * dot3 (sub3 v0 v1) (cross3 (sub3 v2 v1) n)).
  { rewrite Ew. unfold blend, dot3, sub3, add3, scl, cross3. cbn [vx vy vz]. ring. }
  assert (N1 : dot3 (sub3 (blend w0 w1 w2 h v0 v1 v2 n) v2) (cross3 (sub3 v0 v2) n) = w1 * dot3 (sub3 v1 v2) (cross3 (sub3 v0 v2) n)).
  { assert (w0 = 1 - w1 - w2) as -> by lra. unfold blend, dot3, sub3, add3, scl, cross3. cbn [vx vy vz]. ring. }
  unfold barycentric. rewrite N0, N1, D0, D1. unfold rdiv.
  destruct (Req_EM_T (- len X) 0) as [Z|Z]; [lra|]. cbn [mbind res_bind].
  f_equal. assert (A0 : w0 * - len X / - len X = w0) by (field; lra). assert (A1 : w1 * - len X / - len X = w1) by (field; lra).
  rewrite A0, A1. f_equal. lra.
Qed.
Lemma bary_all v0 v1 v2 p : let X := cross3 (sub3 v1 v0) (sub3 v2 v0) in let n := div3 X (len X) in
  0 < len X → ∃ w0 w1 w2 h, w0 + w1 + w2 = 1 ∧ p = blend w0 w1 w2 h v0 v1 v2 n.
Proof.
  intros X n L. set (q := sub3 p v0). set (e1 := sub3 v1 v0) in *. set (e2 := sub3 v2 v0) in *.
  assert (Lx : lsq X = len X * len X) by (symmetry; apply len_sq).
  set (w1 := dot3 (cross3 q e2) X / lsq X). set (w2 := dot3 (cross3 e1 q) X / lsq X). set (h := dot3 q X / len X).
  exists (1 - w1 - w2), w1, w2, h. split; [ring|].
  assert (C : scl (lsq X) q = add3 (add3 (scl (dot3 (cross3 q e2) X) e1) (scl (dot3 (cross3 e1 q) X) e2)) (scl (dot3 q X) X)).
  { unfold X. apply v3_eq; unfold lsq, dot3, scl, add3, cross3; cbn [vx vy vz]; ring. }
  assert (E : q = add3 (add3 (scl w1 e1) (scl w2 e2)) (scl h n)).
  { transitivity (scl (/ lsq X) (scl (lsq X) q)).
    - apply v3_eq; unfold scl; cbn [vx vy vz]; field; rewrite Lx; nra.
    - rewrite C. unfold w1, w2, h, n. apply v3_eq; unfold scl, add3, div3; cbn [vx vy vz]; rewrite Lx; field; lra. }
  clearbody w1 w2 h n. unfold blend. subst q e1 e2.
  apply v3_eq; [apply (f_equal vx) in E|apply (f_equal vy) in E|apply (f_equal vz) in E];
    unfold sub3, add3, scl in *; cbn [vx vy vz] in *; lra.
Qed.
Section faces.
Context (vs : list v3) (ts : list tri) (m : mesh) (f a b c : nat) (va vb vc n : v3).
Context (H : initialize vs ts = Ok m) (Hf : ts !! f = Some (a, b, c)).
Context (Ha : vs !! a = Some va) (Hb : vs !! b = Some vb) (Hc : vs !! c = Some vc) (Hn : m_normals m !! f = Some n).
Lemma face_parts : m_vertices m = vs ∧ m_tris m = ts ∧
  let X := cross3 (sub3 vb va) (sub3 vc va) in 0 < len X ∧ n = div3 X (len X).
Proof.
  apply init_parts in H as (Ev & Et & N & _). split; [done|]. split; [done|].
  destruct (normal_at _ _ _ _ _ N Hf) as (n' & Hn' & Fn). rewrite Hn in Hn'. injection Hn' as <-.
  destruct (face_winds vs _ a b c n Fn) as (v0 & v1 & p & E0 & E1 & Ep & T & En & U); [by left|].
  rewrite Ha in E0. rewrite Hb in E1. rewrite Hc in Ep. injection E0 as <-. injection E1 as <-. injection Ep as <-.
  pose proof tiny_pos. split; [lra|done].
Qed.
(** The weights of a point are those of its projection on the face; every point
    has some. *)
Theorem C96_weights w0 w1 w2 h : w0 + w1 + w2 = 1 →
  barycentric_coordinates m f (blend w0 w1 w2 h va vb vc n) = Ok (w0, w1, w2).
Proof.
  intros Hw. destruct face_parts as (Ev & Et & L & En). unfold barycentric_coordinates.
  rewrite Et, Ev. rewrite (proj2 (Nat.ltb_lt f (length ts))) by (by eapply lookup_lt_Some). cbn [assert_ mbind res_bind].
  unfold at_. rewrite Hf. cbn [opt_res mbind res_bind]. rewrite Ha, Hb, Hc. cbn [opt_res mbind res_bind].
  rewrite (proj2 (Nat.ltb_lt f (length (m_normals m)))) by (by eapply lookup_lt_Some). cbn [assert_ mbind res_bind].
  rewrite Hn. cbn [opt_res mbind res_bind]. by apply bary_ok.
Qed.
Theorem C96_every_point p : ∃ w0 w1 w2 h, w0 + w1 + w2 = 1 ∧ p = blend w0 w1 w2 h va vb vc n.
Proof. destruct face_parts as (_ & _ & L & En). rewrite En. by apply bary_all. Qed.
(** Values on a face are interpolated with those weights. *)
Theorem C96_face l fa fb fc w0 w1 w2 h : l !! a = Some fa → l !! b = Some fb → l !! c = Some fc → w0 + w1 + w2 = 1 →
  face_value m l f (blend w0 w1 w2 h va vb vc n) = Ok (w0 * fa + w1 * fb + w2 * fc).
Proof.
  intros La Lb Lc Hw. unfold face_value. destruct face_parts as (_ & Et & _). unfold at_. rewrite Et, Hf.
  cbn [opt_res mbind res_bind].
  assert (V : ∀ i x, l !! i = Some x → vertex_value l i = Ok x).
  { intros i x Hi. unfold vertex_value, at_. rewrite (proj2 (Nat.ltb_lt i (length l))) by (by eapply lookup_lt_Some).
    cbn [assert_ mbind res_bind]. by rewrite Hi. }
  rewrite (V a fa La), (V b fb Lb), (V c fc Lc). cbn [mbind res_bind]. rewrite C96_weights by done. done.
Qed.
End faces.
Print Assumptions C96_weights.
Print Assumptions C96_every_point.
Print Assumptions C96_face.
Lemma value_at l i x : l !! i = Some x → vertex_value l i = Ok x.
Proof.
  intros Hi. unfold vertex_value, at_. rewrite (proj2 (Nat.ltb_lt i (length l))) by (by eapply lookup_lt_Some).
  cbn [assert_ mbind res_bind]. by rewrite Hi.
Qed.
(** On an edge they are interpolated with a given fraction; of a point of the
    edge the fraction is squared. *)
Theorem C96_edge vs ts m k i0 i1 v0 v1 l f0 f1 t : initialize vs ts = Ok m → m_pairs m !! k = Some (i0, i1) →
  vs !! i0 = Some v0 → vs !! i1 = Some v1 → l !! i0 = Some f0 → l !! i1 = Some f1 →
  edge_value m l k t = Ok ((1 - t) * f0 + t * f1) ∧
  edge_value_at m l k (lerp3 v0 v1 t) = Ok ((1 - t * t) * f0 + t * t * f1).
Proof.
  intros H Hk H0 H1 L0 L1.
  assert (EV : ∀ t, edge_value m l k t = Ok ((1 - t) * f0 + t * f1)).
  { intros s. unfold edge_value, at_. rewrite Hk. cbn [opt_res mbind res_bind fst snd]. rewrite (value_at _ _ _ L0), (value_at _ _ _ L1).
    cbn [mbind res_bind]. f_equal. ring. }
  split; [apply EV|]. unfold edge_value_at. rewrite (proj2 (Nat.ltb_lt k (length (m_pairs m)))) by (by eapply lookup_lt_Some).
  cbn [assert_ mbind res_bind]. pose proof (init_parts _ _ _ H) as (Ev & _ & N & _ & G & _).
  unfold at_. rewrite Hk, Ev. cbn [opt_res mbind res_bind fst snd]. rewrite H0, H1. cbn [opt_res mbind res_bind].
  destruct (g_real _ _ _ _ G _ _ Hk) as (f & tr & w & Ht & W). destruct (normal_at _ _ _ _ _ N Ht) as (n & _ & Fn).
  destruct (face_winds _ _ _ _ _ _ Fn W) as (x0 & x1 & p & X0 & X1 & _ & T & _). simpl in X0, X1.
  rewrite H0 in X0. rewrite H1 in X1. injection X0 as <-. injection X1 as <-.
  assert (D : dsq v1 v0 ≠ 0).
  { intros E. unfold dsq in E. apply lsq_zero in E. rewrite E in T. pose proof tiny_pos.
    assert (cross3 vec0 (sub3 p v0) = vec0) as X by (apply v3_eq; unfold cross3, vec0; cbn [vx vy vz]; ring).
    rewrite X, len_vec0 in T. lra. }
  unfold rdiv. destruct (Req_EM_T (dsq v1 v0) 0) as [Z|Z]; [done|]. cbn [mbind res_bind].
  assert (Q : dsq (lerp3 v0 v1 t) v0 / dsq v1 v0 = t * t).
  { transitivity (t * t * dsq v1 v0 / dsq v1 v0); [|by field].
    f_equal. unfold dsq, lsq, dot3, lerp3, sub3, add3, scl. cbn [vx vy vz]. ring. }
  rewrite Q, EV. done.
Qed.
Print Assumptions C96_edge.

Definition one_vs : list v3 := [vec0; ex; ey].
Definition one_ts : list tri := [(0, 1, 2)]%nat.
Lemma one_ok : ∃ m, initialize one_vs one_ts = Ok m.
Proof.
  apply C94_accepted. split.
  - intros f a b c Hf. destruct f as [|]; simpl in Hf; try done; injection Hf as <- <- <-; simpl; lia.
  - intros f a b c va vb vc Hf Ha Hb Hc. destruct f as [|]; simpl in Hf; try done; injection Hf as <- <- <-;
      simpl in Ha, Hb, Hc; injection Ha as <-; injection Hb as <-; injection Hc as <-; unit_len.
Qed.
(** In the middle of an edge the value of the edge and that of the face differ. *)
Theorem C96_refuted_middle : ∃ vs ts m l k f v0 v1 x y, initialize vs ts = Ok m ∧
  vs !! 0%nat = Some v0 ∧ vs !! 1%nat = Some v1 ∧ l !! 0%nat = Some 0 ∧ l !! 1%nat = Some 1 ∧
  (∃ q, m_pairs m !! k = Some q ∧ same_ends q (0, 1)%nat ∧ has_side ts f q) ∧
  face_value m l f (lerp3 v0 v1 (1 / 2)) = Ok x ∧ edge_value_at m l k (lerp3 v0 v1 (1 / 2)) = Ok y ∧ x = 1 / 2 ∧ y ≠ 1 / 2.
Proof.
  destruct one_ok as [m H]. destruct (C94_edges _ _ _ H) as (O & _).
  destruct (O 0%nat (0, 1, 2)%nat 0%nat eq_refl ltac:(lia)) as (k & q & _ & Hq & E). simpl in E.
  destruct (C95_normals _ _ _ 0%nat _ _ _ _ _ _ H eq_refl eq_refl eq_refl eq_refl) as (n & _ & Hn & _).
  pose proof (C96_face _ _ _ 0%nat _ _ _ _ _ _ n H eq_refl eq_refl eq_refl eq_refl Hn [0; 1; 0] 0 1 0 (1 / 2) (1 / 2) 0 0
    eq_refl eq_refl eq_refl ltac:(lra)) as F.
  assert (B : blend (1 / 2) (1 / 2) 0 0 vec0 ex ey n = lerp3 vec0 ex (1 / 2)).
  { apply v3_eq; unfold blend, lerp3, add3, scl, vec0, ex, ey; cbn [vx vy vz]; lra. }
  rewrite B in F.
  assert (Ey : ∃ y, edge_value_at m [0; 1; 0] k (lerp3 vec0 ex (1 / 2)) = Ok y ∧ y ≠ 1 / 2).
  { destruct E as [->| ->].
    - destruct (C96_edge _ _ _ k 0%nat 1%nat vec0 ex [0; 1; 0] 0 1 (1 / 2) H Hq) as [_ X]; try done.
      eexists. split; [exact X|]. lra.
    - destruct (C96_edge _ _ _ k 1%nat 0%nat ex vec0 [0; 1; 0] 1 0 (1 / 2) H Hq) as [_ X]; try done.
      replace (lerp3 ex vec0 (1 / 2)) with (lerp3 vec0 ex (1 / 2)) in X
        by (apply v3_eq; unfold lerp3, add3, scl, vec0, ex; cbn [vx vy vz]; lra).
      eexists. split; [exact X|]. lra. }
  destruct Ey as (y & Y1 & Y2).
  exists one_vs, one_ts, m, [0; 1; 0], k, 0%nat, vec0, ex, (1 / 2 * 0 + 1 / 2 * 1 + 0 * 0), y.
  split_and!; try done; [|lra]. exists q. split_and!; try done.
  exists (0, 1, 2)%nat, 0%nat, 1%nat, 2%nat. split_and!; [done|by left|done].
Qed.
Print Assumptions C96_refuted_middle.

(** Two triangles folded along an edge meet the hypotheses of the convexity. *)
Example C95_case : let vs := [vec0; ex; ey; V3 0 (-1) (-1)] in let ts := [(0, 1, 2); (1, 0, 3)]%nat in
  (∃ m, initialize vs ts = Ok m) ∧ winds (0, 1, 2)%nat 0 1 2 ∧ winds (1, 0, 3)%nat 1 0 3 ∧
  lsq (sub3 ex vec0) * dot3 (sub3 (V3 0 (-1) (-1)) vec0) ez < - eps * len (cross3 (sub3 ex vec0) (sub3 (V3 0 (-1) (-1)) vec0)).
Proof.
  cbv zeta. assert (S : lsq (cross3 (sub3 ex vec0) (sub3 (V3 0 (-1) (-1)) vec0)) = 2)
    by (unfold lsq, dot3, cross3, sub3, vec0, ex; cbn [vx vy vz]; ring).
  assert (S2 : 1 < sqrt 2 < 2).
  { split; [apply Rlt_le_trans with (sqrt (1 * 1 + 1 / 10)); [|apply sqrt_le_1_alt; lra]|].
    - rewrite <- sqrt_1 at 1. apply sqrt_lt_1_alt. lra.
    - apply Rlt_le_trans with (sqrt (2 * 2)); [apply sqrt_lt_1_alt; lra|]. rewrite sqrt_square; lra. }
  split_and!; [|by left|by left|].
  - apply C94_accepted. split.
    + intros f a b c Hf. destruct f as [|[|]]; simpl in Hf; try done; injection Hf as <- <- <-; simpl; lia.
    + intros f a b c va vb vc Hf Ha Hb Hc. destruct f as [|[|]]; simpl in Hf; try done; injection Hf as <- <- <-;
        simpl in Ha, Hb, Hc; injection Ha as <-; injection Hb as <-; injection Hc as <-; [unit_len|].
      unfold len. match goal with |- _ < sqrt ?a => replace a with 2 by (unfold lsq, dot3, cross3, sub3, vec0, ex; cbn [vx vy vz]; ring) end.
      unfold tiny. lra.
  - unfold len. rewrite S. 
    replace (lsq (sub3 ex vec0) * dot3 (sub3 (V3 0 (-1) (-1)) vec0) ez) with (-1) by (unfold lsq, dot3, sub3, vec0, ex, ez; cbn [vx vy vz]; ring).
    unfold eps. lra.
Qed.
