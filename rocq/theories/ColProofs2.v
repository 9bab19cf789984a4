(** Contacts with planes; spheres against boxes and cylinders. *)
From Verif Require Import Outcome BoxModel GeoModel RotSpec RotProofs NearModel NearSpec NearProofs NearProofs2 RayModel RaySpec
  RayProofs2 RayProofs3 RayProps SupModel SupSpec SupProofs SupProofs2 ColModel ColSpec ColProofs.
From Coq Require Import Reals Lra Psatz.
Local Open Scope R_scope.

Lemma dist_off v n r : unit3 n → 0 <= r → GeoModel.dist (sub3 v (scl r n)) v <= r.
Proof.
  intros Hn Hr. apply dist_le_r; [done|].
  replace (lsq _) with (r * r * lsq n) by (unfold lsq, dot3, sub3, scl; cbn [vx vy vz]; ring). rewrite (unit_lsq n Hn). lra.
Qed.
(** ** Planes *)
Lemma plane_gap x n k : unit3 n → dot3 (sub3 x (scl k n)) n = dot3 x n - k.
Proof. intros H. rewrite dot_sub_l, dot_scl_l. unfold unit3 in H. rewrite H. ring. Qed.
Lemma project_on x n k : unit3 n → dot3 (project_plane x (scl k n) n) n = k.
Proof. intros H. unfold project_plane. rewrite plane_gap by done. rewrite dot_sub_l, dot_scl_l. unfold unit3 in H. rewrite H. ring. Qed.
Lemma project_diff x n k : unit3 n → sub3 x (project_plane x (scl k n) n) = scl (dot3 x n - k) n.
Proof. intros H. unfold project_plane. rewrite plane_gap by done. vec; ring. Qed.
Lemma home_b c p : plane_home c → world_b c p = p_b p.
Proof. intros [H1 H2]. unfold world_b. rewrite H1, H2, to_world_qid. vec; ring. Qed.

(** The sphere: the point is on the sphere, the distance is that of its lowest
    point; the pivot on the plane fits in only one place of the plane body. *)
Lemma sphere_plane_ok r n k c : turned c → unit3 n → 0 <= r →
  let A := ball (c_posA c) r in
  let l := sphere_plane r n k c in
  (l = [] ↔ ∀ a, A a → 0 < dot3 a n - k) ∧
  (∀ p, p ∈ l → p_normal p = n ∧ A (world_a c p) ∧ p_dist p = dot3 (world_a c p) n - k ∧
     (∀ a, A a → p_dist p <= dot3 a n - k) ∧
     (plane_point A n k (world_a c p) (world_b c p) (p_dist p) ↔ c_posB c = scl (2 * k) n)).
Proof.
  intros [TA TB] Hn Hr. cbv zeta. unfold sphere_plane.
  assert (El : dot3 n (sub3 (c_posA c) (scl k n)) = dot3 (c_posA c) n - k) by (rewrite dot_comm; apply plane_gap; done).
  rewrite El. set (x := c_posA c) in *.
  assert (Low : ball x r (sub3 x (scl r n))).
  { apply dist_off; done. }
  assert (Min : ∀ a, ball x r a → dot3 x n - r <= dot3 a n).
  { intros a Ha. unfold ball in Ha. pose proof (dot_le_len x a n Hn). rewrite gdist_sym in Ha. lra. }
  assert (LowD : dot3 (sub3 x (scl r n)) n = dot3 x n - r).
  { rewrite dot_sub_l, dot_scl_l. unfold unit3 in Hn. rewrite Hn. ring. }
  destruct (rltb r (dot3 x n - k)) eqn:E.
  - apply rltb_true in E. split; [|intros p Hp; inversion Hp]. split; [|done]. intros _ a Ha. specialize (Min a Ha). lra.
  - apply rltb_false in E. split.
    + split; [done|]. intros F. specialize (F _ Low). lra.
    + intros p Hp. apply elem_of_list_singleton in Hp. subst p. cbn [p_normal p_dist].
      assert (WA : world_a c (CP (rotate (qconj (c_ornA c)) (scl r (neg3 n)))
         (rotate (qconj (c_ornB c)) (sub3 (sub3 (sub3 x (scl k n)) (scl (dot3 x n - k) n)) (scl k n))) n (dot3 x n - k - r) AOnB)
         = sub3 x (scl r n)).
      { unfold world_a. cbn [p_a]. rewrite world_rot by done. fold x. vec; ring. }
      rewrite WA, LowD. split_and!; try done; [lra| |].
      * intros a Ha. specialize (Min a Ha). lra.
      * unfold world_b. cbn [p_b]. rewrite world_rot by done. unfold plane_point. set (y := c_posB c). split.
        -- intros (_ & _ & D). apply (f_equal vx) in D as X; apply (f_equal vy) in D as Y; apply (f_equal vz) in D as Z.
           unfold add3, sub3, scl in X, Y, Z; cbn [vx vy vz] in X, Y, Z. vec; lra.
        -- intros Ey. split; [done|]. rewrite Ey. split; [|vec; ring].
           rewrite dot_add_l, !dot_sub_l, !dot_scl_l. unfold unit3 in Hn. rewrite Hn. ring.
Qed.

Lemma capsule_low v0 v1 r n x : unit3 n → capsule v0 v1 r x →
  Rmin (dot3 v0 n) (dot3 v1 n) - r <= dot3 x n.
Proof.
  intros Hn (y & (t & Ht & ->) & D). pose proof (dot_le_len (add3 v0 (scl t (sub3 v1 v0))) x n Hn) as L. rewrite gdist_sym in L.
  rewrite dot_add_l, dot_scl_l, dot_sub_l in L. pose proof (Rmin_l (dot3 v0 n) (dot3 v1 n)). pose proof (Rmin_r (dot3 v0 n) (dot3 v1 n)). nra.
Qed.
Lemma capsule_plane_ok r hl a n k c : turned c → unit3 n → 0 <= r → plane_home c →
  plane_contacts (capsule_at r hl a (c_posA c) (c_ornA c)) n k 0 c (capsule_plane r hl a n k c).
Proof.
  intros [TA TB] Hn Hr Ho. unfold capsule_plane, plane_contacts, capsule_at.
  set (v0 := capsule_vertex hl a (c_posA c) (c_ornA c) false) in *. set (v1 := capsule_vertex hl a (c_posA c) (c_ornA c) true) in *.
  set (mk v := CP (to_object (sub3 v (scl r n)) (c_posA c) (c_ornA c)) (project_plane v (scl k n) n) n (dot3 v n - k - r) AOnB).
  assert (EL : flat_map (λ i : bool, let v := capsule_vertex hl a (c_posA c) (c_ornA c) i in
       let distance := dot3 (sub3 v (scl k n)) n - r in
       if rltb (c_thr c) distance then [] else
       let paw := sub3 v (scl r n) in [CP (to_object paw (c_posA c) (c_ornA c)) (project_plane v (scl k n) n) n distance AOnB]) [false; true]
     = (if rltb (c_thr c) (dot3 v0 n - k - r) then [] else [mk v0]) ++ (if rltb (c_thr c) (dot3 v1 n - k - r) then [] else [mk v1])).
  { cbn [flat_map]. fold v0 v1. rewrite !plane_gap by done. rewrite app_nil_r. done. }
  cbv zeta in EL |- *. rewrite EL. clear EL.
  assert (In : ∀ v, on_segment v0 v1 v → capsule v0 v1 r (sub3 v (scl r n))).
  { intros v Hv. exists v. split; [done|]. apply dist_off; done. }
  assert (S0 : on_segment v0 v1 v0) by (exists 0; split; [lra|vec; ring]).
  assert (S1 : on_segment v0 v1 v1) by (exists 1; split; [lra|vec; ring]).
  assert (D : ∀ v, dot3 (sub3 v (scl r n)) n = dot3 v n - r).
  { intros v. rewrite dot_sub_l, dot_scl_l. unfold unit3 in Hn. rewrite Hn. ring. }
  pose proof (λ x, capsule_low v0 v1 r n x Hn) as Low.
  assert (PP : ∀ v, on_segment v0 v1 v → p_normal (mk v) = n ∧
     plane_point (capsule v0 v1 r) n k (world_a c (mk v)) (world_b c (mk v)) (p_dist (mk v))).
  { intros v Hv. split; [done|]. rewrite home_b by done. unfold world_a, mk. cbn [p_a p_b p_dist]. rewrite world_object' by done.
    split_and!; [apply In; done|apply project_on; done|].
    transitivity (sub3 (sub3 v (project_plane v (scl k n) n)) (scl r n)); [vec; ring|]. rewrite project_diff by done. vec; ring. }
  assert (E0 : p_dist (mk v0) = dot3 v0 n - k - r) by done. assert (E1 : p_dist (mk v1) = dot3 v1 n - k - r) by done.
  pose proof (In _ S0) as I0. pose proof (In _ S1) as I1. pose proof (PP _ S0) as P0. pose proof (PP _ S1) as P1. clearbody mk.
  assert (M : ∀ x, capsule v0 v1 r x → dot3 v0 n - r <= dot3 x n ∨ dot3 v1 n - r <= dot3 x n).
  { intros x Hx. specialize (Low x Hx). unfold Rmin in Low. destruct Rle_dec; [left|right]; lra. }
  assert (M' : ∀ x, capsule v0 v1 r x → (dot3 v0 n <= dot3 v1 n → dot3 v0 n - r <= dot3 x n) ∧ (dot3 v1 n <= dot3 v0 n → dot3 v1 n - r <= dot3 x n)).
  { intros x Hx. destruct (M x Hx); lra. }
  destruct (rltb (c_thr c) (dot3 v0 n - k - r)) eqn:F0; [apply rltb_true in F0|apply rltb_false in F0];
  (destruct (rltb (c_thr c) (dot3 v1 n - k - r)) eqn:F1; [apply rltb_true in F1|apply rltb_false in F1]); cbn [app]; split_and!.
  - split; [|done]. intros _ x Hx. destruct (M x Hx); lra.
  - intros p Hp. inversion Hp.
  - done.
  - split; [done|]. intros F. specialize (F _ I1). rewrite D in F. lra.
  - intros p Hp. apply elem_of_list_singleton in Hp. subst p. done.
  - intros _. exists (mk v1). split; [set_solver|]. intros x Hx. destruct (M' x Hx). rewrite E1. lra.
  - split; [done|]. intros F. specialize (F _ I0). rewrite D in F. lra.
  - intros p Hp. apply elem_of_list_singleton in Hp. subst p. done.
  - intros _. exists (mk v0). split; [set_solver|]. intros x Hx. destruct (M' x Hx). rewrite E0. lra.
  - split; [done|]. intros F. specialize (F _ I0). rewrite D in F. lra.
  - intros p Hp. apply elem_of_cons in Hp as [->|Hp]; [done|]. apply elem_of_list_singleton in Hp. subst p. done.
  - intros _. destruct (Rle_dec (dot3 v0 n) (dot3 v1 n)).
    + exists (mk v0). split; [set_solver|]. intros x Hx. destruct (M' x Hx). rewrite E0. lra.
    + exists (mk v1). split; [set_solver|]. intros x Hx. destruct (M' x Hx). rewrite E1. lra.
Qed.

(** The cylinder *)
Lemma cylinder_plane_ok r hl a n k c : turned c → unit3 n → 0 < r → 0 <= hl → plane_home c →
  off_axis (axis_vec_q a (c_ornA c)) n = 0 ∨ eps < off_axis (axis_vec_q a (c_ornA c)) n →
  ∃ l, cylinder_plane r hl a n k c = Ok l ∧
    plane_contacts (cylinder (c_posA c) (axis_vec_q a (c_ornA c)) r hl) n k support_tolerance c l.
Proof.
  intros [TA TB] Hn Hr Hh Ho C. unfold cylinder_plane, plane_contacts. pose proof eps_pos.
  set (pos := c_posA c) in *. set (orn := c_ornA c) in *. set (ax := axis_vec_q a orn) in *.
  assert (C' : off_axis ax (neg3 n) = 0 ∨ eps < off_axis ax (neg3 n)).
  { replace (off_axis ax (neg3 n)) with (off_axis ax n); [done|]. unfold off_axis, lsq, dot3, neg3; cbn [vx vy vz]. ring. }
  pose proof (cylinder_furthest r hl a pos orn (neg3 n) TA (Rlt_le _ _ Hr) Hh C') as [F1 F2]. fold ax in F1, F2.
  rewrite cylinder_projection_eq by done. set (w := cylinder_point_at r hl a pos orn (neg3 n)) in *.
  rewrite dot_neg in *. 
  assert (Low : ∀ x, cylinder pos ax r hl x → dot3 w n <= dot3 x n).
  { intros x Hx. specialize (F2 x Hx). rewrite dot_neg in F2. lra. }
  replace (- - dot3 w n) with (dot3 w n) by ring.
  destruct (rltb (c_thr c) (dot3 w n - k)) eqn:E.
  { apply rltb_true in E. eexists. split; [done|]. split_and!; [|intros p Hp; inversion Hp|done].
    split; [|done]. intros _ x Hx. specialize (Low x Hx). lra. }
  apply rltb_false in E.
  set (point := λ v paw, let pb := project_plane paw (scl k n) n in CP v pb n (dot3 (sub3 paw pb) n) AOnB).
  assert (PO : ∀ v paw, to_world v pos orn = paw → cylinder pos ax r hl paw →
    (p_normal (point v paw) = n ∧ plane_point (cylinder pos ax r hl) n k (world_a c (point v paw)) (world_b c (point v paw)) (p_dist (point v paw)))
    ∧ p_dist (point v paw) = dot3 paw n - k).
  { intros v paw W I. rewrite home_b by done. unfold world_a, point. cbn [p_a p_b p_dist p_normal]. fold pos orn. rewrite W.
    assert (DD : dot3 (sub3 paw (project_plane paw (scl k n) n)) n = dot3 paw n - k).
    { rewrite project_diff, dot_scl_l by done. unfold unit3 in Hn. rewrite Hn. ring. }
    split; [|done]. split; [done|]. rewrite DD. split_and!; [done|apply project_on; done|apply project_diff; done]. }
  assert (EX : ∀ l, l ≠ [] → (∀ p, p ∈ l → ∃ v paw, p = point v paw ∧ to_world v pos orn = paw ∧ cylinder pos ax r hl paw) →
     (∃ p, p ∈ l ∧ ∃ v paw, p = point v paw ∧ to_world v pos orn = paw ∧ cylinder pos ax r hl paw ∧ dot3 paw n <= dot3 w n + support_tolerance) →
     (l = [] ↔ ∀ x, cylinder pos ax r hl x → c_thr c < dot3 x n - k) ∧
     (∀ p, p ∈ l → p_normal p = n ∧ plane_point (cylinder pos ax r hl) n k (world_a c p) (world_b c p) (p_dist p)) ∧
     (l ≠ [] → ∃ p, p ∈ l ∧ ∀ x, cylinder pos ax r hl x → p_dist p <= dot3 x n - k + support_tolerance)).
  { intros l Nl Hl (p & Hp & v & paw & Ep & W & I & D). split_and!.
    - split; [done|]. intros Q. specialize (Q w F1). lra.
    - intros p' Hp'. destruct (Hl p' Hp') as (v' & paw' & -> & W' & I'). apply (PO v' paw' W' I').
    - intros _. exists p. split; [done|]. intros x Hx. subst p. rewrite (proj2 (PO v paw W I)). specialize (Low x Hx). lra. }
  assert (HnL : lsq (neg3 n) = 1). { rewrite <- (unit_lsq n Hn). unfold lsq, dot3, neg3; cbn [vx vy vz]. ring. }
  set (ld := rotate (qconj orn) (neg3 n)).
  assert (P : planar a ld = off_axis ax (neg3 n)) by (apply planar_off; done).
  assert (ELd : el a ld = - dot3 n ax). { rewrite el_dot. unfold ld. rewrite object_coord by done. fold ax. unfold dot3, neg3; cbn [vx vy vz]. ring. }
  assert (VW : dot3 w n = dot3 pos n - hl * Rabs (el a ld) - r * sqrt (planar a ld)).
  { assert (V : dot3 w (neg3 n) = dot3 pos (neg3 n) + dot3 (cylinder_point r hl a ld) ld) by (apply world_dot; done).
    rewrite cylinder_point_val' in V; [|lra|done|rewrite P; done]. rewrite !dot_neg in V. lra. }
  assert (UA : dot3 ax ax = 1) by (apply axis_unit; done).
  unfold cylinder_support_feature. fold (planar a ld). cbv zeta.
  assert (TP : 0 < support_tolerance) by (unfold support_tolerance; lra).
  destruct (rltb (4 * r * r * planar a ld) (support_tolerance * support_tolerance)) eqn:G1.
  - (* face *)
    apply rltb_true in G1. eexists. split; [done|]. set (s := rltb 0 (el a ld)).
    pose proof (planar_nonneg a ld) as PN. pose proof (sqrt_pos (planar a ld)) as SP. pose proof (sqrt_sqrt _ PN) as SS.
    assert (Sm : 2 * r * sqrt (planar a ld) < support_tolerance).
    { set (q := sqrt (planar a ld)) in *. rewrite <- SS in G1. clearbody q. assert (0 <= 2 * r * q) by nra. nra. }
    assert (Sg : sign s * el a ld = Rabs (el a ld)).
    { unfold s, sign. destruct (rltb 0 (el a ld)) eqn:Z; [apply rltb_true in Z; rewrite Rabs_right by lra; ring|apply rltb_false in Z; rewrite Rabs_left1 by lra; ring]. }
    assert (Mem : ∀ m0 m1, m0 * m0 + m1 * m1 = 1 →
       cylinder pos ax r hl (to_world (with_el a (hl * sign s) (r * m0) (r * m1)) pos orn) ∧
       dot3 (to_world (with_el a (hl * sign s) (r * m0) (r * m1)) pos orn) n <= dot3 w n + support_tolerance).
    { intros m0 m1 M. assert (L : lcyl r hl a (with_el a (hl * sign s) (r * m0) (r * m1))).
      { split; [rewrite with_el_0; unfold sign; destruct s; lra|]. unfold planar. rewrite with_el_1, with_el_2.
        replace (r * m0 * (r * m0) + r * m1 * (r * m1)) with (r * r * (m0 * m0 + m1 * m1)) by ring. rewrite M. lra. }
      split; [apply placed_cylinder; [done|lra|eexists; split; [exact L|done]]|].
      assert (V : dot3 (to_world (with_el a (hl * sign s) (r * m0) (r * m1)) pos orn) (neg3 n)
        = dot3 pos (neg3 n) + dot3 (with_el a (hl * sign s) (r * m0) (r * m1)) ld) by (apply world_dot; done).
      rewrite (dot_el a (with_el _ _ _ _)), with_el_0, with_el_1, with_el_2 in V. rewrite !dot_neg in V.
      pose proof (planar_cauchy a (with_el a 0 (- (r * m0)) (- (r * m1))) ld r (Rlt_le _ _ Hr)) as PC.
      rewrite with_el_1, with_el_2 in PC. unfold planar at 1 in PC. rewrite with_el_1, with_el_2 in PC.
      assert (PC' : - (r * m0) * - (r * m0) + - (r * m1) * - (r * m1) <= r * r).
      { replace (- (r * m0) * - (r * m0) + - (r * m1) * - (r * m1)) with (r * r * (m0 * m0 + m1 * m1)) by ring. rewrite M. lra. }
      specialize (PC PC'). assert (SG2 : hl * sign s * el a ld = hl * Rabs (el a ld)) by (rewrite <- Sg; ring). lra. }
    apply EX; [done| |].
    + intros p Hp. apply elem_of_list_In in Hp. cbn [map In] in Hp.
      destruct Hp as [<-|[<-|[<-|[<-|[]]]]]; do 2 eexists; (split; [done|split; [done|apply Mem; lra]]).
    + eexists. split; [apply elem_of_list_In; cbn [map In]; left; reflexivity|]. do 2 eexists. split; [done|]. split; [done|]. apply Mem; lra.
  - (* an edge *)
    apply rltb_false in G1.
    assert (Po : eps < planar a ld). { rewrite P in *. destruct C' as [Z|Z]; [|done]. rewrite Z in G1. nra. }
    set (pd := project_direction (neg3 n) ax).
    assert (Lp : lsq pd = planar a ld).
    { unfold pd, project_direction. rewrite P. unfold off_axis. set (u := dot3 (neg3 n) ax).
      assert (lsq (sub3 (neg3 n) (scl u ax)) = lsq (neg3 n) - 2 * u * dot3 (neg3 n) ax + u * u * dot3 ax ax) as ->
        by (unfold lsq, dot3, sub3, scl; cbn [vx vy vz]; ring). fold u. rewrite UA. ring. }
    assert (LL : len pd = sqrt (planar a ld)) by (unfold len; rewrite Lp; done).
    assert (Pp : 0 < lsq pd) by lra.
    assert (Nm : normalize3 pd = Ok (div3 pd (len pd))).
    { unfold normalize3, assert_. assert (rltb tiny (len pd) = true) as ->; [|done]. apply rltb_true.
      pose proof (len_pos pd Pp). pose proof (len_sq pd) as LS. assert (tiny < eps) by (unfold tiny, eps; lra). pose proof tiny_pos. 
      assert (eps < 1) by (pose proof eps_small; lra). nra. }
    rewrite Nm. cbn [mbind res_bind]. set (dir := div3 pd (len pd)).
    assert (Ud : unit3 dir) by (apply unit_div; done).
    assert (Da : dot3 dir ax = 0).
    { unfold dir. rewrite div_scl, dot_scl_l. replace (dot3 pd ax) with 0; [ring|]. unfold pd, project_direction. rewrite dot_sub_l, dot_scl_l, UA. ring. }
    assert (Dn : dot3 dir n = - sqrt (planar a ld)).
    { assert (dot3 pd pd = - dot3 pd n).
      { transitivity (dot3 pd (neg3 n)); [|apply dot_neg]. unfold pd at 2, project_direction. rewrite (dot_comm pd), dot_sub_l, dot_scl_l, (dot_comm ax).
        replace (dot3 pd ax) with 0 by (unfold pd, project_direction; rewrite dot_sub_l, dot_scl_l, UA; ring). rewrite (dot_comm (neg3 n)). ring. }
      unfold dir. rewrite div_scl, dot_scl_l. fold (lsq pd) in H0. rewrite <- len_sq in H0.
      pose proof (len_pos pd Pp). replace (dot3 pd n) with (- (len pd * len pd)) by lra. rewrite <- LL. field. lra. }
    assert (Mem : ∀ s, -1 <= s <= 1 → cylinder pos ax r hl (add3 (add3 pos (scl (s * hl) ax)) (scl r dir)) ∧
       dot3 (add3 (add3 pos (scl (s * hl) ax)) (scl r dir)) n = dot3 pos n + s * hl * dot3 n ax - r * sqrt (planar a ld)).
    { intros s Hs. split.
      - assert (AX' : dot3 (sub3 (add3 (add3 pos (scl (s * hl) ax)) (scl r dir)) pos) ax = s * hl).
        { rewrite dot_sub_l, !dot_add_l, !dot_scl_l, UA, Da. ring. }
        unfold cylinder. rewrite AX'. split; [nra|]. apply dist_le_r; [lra|].
        replace (sub3 (add3 (add3 pos (scl (s * hl) ax)) (scl r dir)) (add3 pos (scl (s * hl) ax))) with (scl r dir) by (vec; ring).
        replace (lsq (scl r dir)) with (r * r * lsq dir) by (unfold lsq, dot3, scl; cbn [vx vy vz]; ring). rewrite (unit_lsq _ Ud). lra.
      - rewrite !dot_add_l, !dot_scl_l, Dn, (dot_comm ax). ring. }
    assert (Ab : hl * Rabs (el a ld) = hl * Rabs (dot3 n ax)) by (rewrite ELd, Rabs_Ropp; done).
    destruct (rltb (Rabs (2 * hl * el a ld)) support_tolerance) eqn:G2.
    + (* the side *)
      eexists. split; [done|]. apply EX; [done| |].
      * intros p Hp. apply elem_of_cons in Hp as [->|Hp]; [|apply elem_of_list_singleton in Hp; subst p]; do 2 eexists;
          (split; [done|split; [apply world_object'; done|]]).
        -- destruct (Mem (-1)) as [Q _]; [lra|]. replace (add3 pos (scl (-1 * hl) ax)) with (sub3 pos (scl hl ax)) in Q by (vec; ring). done.
        -- destruct (Mem 1) as [Q _]; [lra|]. replace (add3 pos (scl (1 * hl) ax)) with (add3 pos (scl hl ax)) in Q by (vec; ring). done.
      * destruct (Rle_dec 0 (dot3 n ax)) as [Z|Z].
        -- eexists. split; [apply elem_of_cons; left; reflexivity|]. do 2 eexists. split; [done|]. split; [apply world_object'; done|].
           destruct (Mem (-1)) as [Q1 Q2]; [lra|]. replace (add3 pos (scl (-1 * hl) ax)) with (sub3 pos (scl hl ax)) in Q1, Q2 by (vec; ring).
           split; [done|]. rewrite Q2, VW, Ab, Rabs_right by lra. lra.
        -- eexists. split; [apply elem_of_cons; right; apply elem_of_cons; left; reflexivity|]. do 2 eexists. split; [done|]. split; [apply world_object'; done|].
           destruct (Mem 1) as [Q1 Q2]; [lra|]. replace (add3 pos (scl (1 * hl) ax)) with (add3 pos (scl hl ax)) in Q1, Q2 by (vec; ring).
           split; [done|]. rewrite Q2, VW, Ab, Rabs_left by lra. lra.
    + eexists. split; [done|]. set (s := rltb 0 (el a ld)).
      assert (QQ : cylinder pos ax r hl (add3 (add3 pos (scl (sign s) (scl hl ax))) (scl r dir)) ∧
        dot3 (add3 (add3 pos (scl (sign s) (scl hl ax))) (scl r dir)) n = dot3 w n).
      { destruct (Mem (sign s)) as [Q1 Q2]; [unfold sign; destruct s; lra|].
        replace (scl (sign s * hl) ax) with (scl (sign s) (scl hl ax)) in Q1, Q2 by (vec; ring). split; [done|]. rewrite Q2, VW, Ab.
        unfold s, sign. destruct (rltb 0 (el a ld)) eqn:Z; rewrite ELd in Z.
        - apply rltb_true in Z. rewrite Rabs_left by lra. ring.
        - apply rltb_false in Z. rewrite Rabs_right by lra. ring. }
      destruct QQ as [Q1 Q2]. apply EX; [done| |].
      * intros p Hp. apply elem_of_list_singleton in Hp. subst p. do 2 eexists. split; [done|]. split; [apply world_object'; done|done].
      * eexists. split; [apply elem_of_list_singleton; reflexivity|]. do 2 eexists. split; [done|]. split; [apply world_object'; done|].
        split; [done|]. rewrite Q2. lra.
Qed.
