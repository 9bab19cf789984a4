(** Spheres against boxes and cylinders. *)
From Verif Require Import Outcome BoxModel GeoModel RotSpec RotProofs NearModel NearSpec NearProofs NearProofs2 RayModel RaySpec
  RayProofs2 RayProofs3 RayProps SupModel SupSpec SupProofs SupProofs2 ColModel ColSpec ColProofs ColProofs2.
From Coq Require Import Reals Lra Psatz.
Local Open Scope R_scope.

Lemma box_convex h : convex (in_box h).
Proof. intros x y t (X1 & X2 & X3) (Y1 & Y2 & Y3) Ht. unfold in_box, add3, scl, sub3; cbn [vx vy vz]. split_and!; nra. Qed.
Lemma to_world_dist x y pos orn : qlsq orn = 1 → GeoModel.dist (to_world x pos orn) (to_world y pos orn) = GeoModel.dist x y.
Proof.
  intros H. unfold GeoModel.dist, len. f_equal. unfold to_world.
  replace (sub3 (add3 pos (rotate orn x)) (add3 pos (rotate orn y))) with (rotate orn (sub3 x y)) by (rewrite rotate_sub; vec; ring).
  unfold lsq. apply rotate_dot. done.
Qed.
(** A contact in the space of a body is one in the world *)
Lemma contact_world (A B : v3 → Prop) pa pb n d pos orn : qlsq orn = 1 → contact A B pa pb n d →
  contact (placed pos orn A) (placed pos orn B) (to_world pa pos orn) (to_world pb pos orn) (rotate orn n) d.
Proof.
  intros H (H1 & H2 & H3 & H4 & H5).
  assert (S : ∀ x y, sub3 (to_world x pos orn) (to_world y pos orn) = rotate orn (sub3 x y)).
  { intros. unfold to_world. rewrite rotate_sub. vec; ring. }
  split_and!; [eexists; done|eexists; done|unfold unit3; rewrite rotate_dot by done; done| |].
  - rewrite S, H4, rotate_scl. done.
  - intros a b (a' & Ha & ->) (b' & Hb & ->). rewrite S, rotate_dot by done. apply H5; done.
Qed.
Lemma placed_point pos orn p x : qlsq orn = 1 → placed pos orn (eq p) x ↔ to_world p pos orn = x.
Proof. intros H. split; [intros (y & <- & ->); done|intros <-; exists p; done]. Qed.
Lemma ball_placed p r pos orn x : qlsq orn = 1 → placed pos orn (ball p r) x ↔ ball (to_world p pos orn) r x.
Proof.
  intros H. rewrite placed_iff by done. unfold ball. rewrite <- (to_world_dist (to_object x pos orn) p pos orn) by done.
  rewrite world_object' by done. done.
Qed.

Section sphere_box.
  Context (r : R) (h : v3) (c : cctx).
  Let cb := qconj (c_ornB c).
  Let p := rotate cb (sub3 (c_posA c) (c_posB c)).
  Lemma sb_centre : qlsq (c_ornB c) = 1 → to_world p (c_posB c) (c_ornB c) = c_posA c.
  Proof. intros TB. unfold p, cb. rewrite world_rot by done. vec; ring. Qed.
  Lemma sb_pivot n : turned c →
    to_world (to_object (sub3 p (scl r n)) p (qmul cb (c_ornA c))) (c_posA c) (c_ornA c)
    = to_world (sub3 p (scl r n)) (c_posB c) (c_ornB c).
  Proof.
    intros [TA TB]. unfold to_object. set (v := sub3 (sub3 p (scl r n)) p).
    assert (UB : qlsq cb = 1) by (apply unit_conj; done).
    assert (E : rotate (c_ornA c) (rotate (qconj (qmul cb (c_ornA c))) v) = rotate (c_ornB c) v).
    { assert (Q : rotate (qmul cb (c_ornA c)) (rotate (qconj (qmul cb (c_ornA c))) v) = v) by (apply conj_inv'; apply unit_mul; done).
      rewrite rotate_mul in Q by done. rewrite <- Q at 2. unfold cb at 2. rewrite conj_inv' by done. done. }
    unfold to_world at 1. rewrite E. pose proof (sb_centre TB) as S. unfold to_world in S |- *. rewrite <- S at 1.
    unfold v. rewrite !rotate_sub. vec; ring.
  Qed.
  Lemma sb_p : p = to_object (c_posA c) (c_posB c) (c_ornB c).
  Proof. done. Qed.

  Hypothesis (Hc : turned c) (Hr : 0 <= r) (Ht : 0 <= c_thr c) (h0 : 0 <= vx h) (h1 : 0 <= vy h) (h2 : 0 <= vz h).
  Lemma sphere_box_out : eps < lsq (sub3 p (closest_point_box_outside h p)) →
    ∃ l, sphere_box r h c = Ok l ∧ contacts (ball (c_posA c) r) (placed (c_posB c) (c_ornB c) (in_box h)) c l.
  Proof.
    intros C. pose proof Hc as [TA TB]. pose proof eps_pos as EP. unfold sphere_box. fold cb. fold p.
    pose proof (outside_ok h p h0 h1 h2) as N. set (q := closest_point_box_outside h p) in *.
    assert (NP : nearest_pair (eq p) (in_box h) p q).
    { destruct N as [N1 N2]. split_and!; try done. intros ? y <- Hy. apply N2. done. }
    assert (BR : ∀ x, ball (c_posA c) r x ↔ placed (c_posB c) (c_ornB c) (ball p r) x).
    { intros x. rewrite ball_placed, sb_centre by done. done. }
    destruct (rltb _ (lsq (sub3 p q))) eqn:E.
    - apply rltb_true in E. eexists. split; [done|]. split; [|intros x Hx; inversion Hx]. intros _ a b Ha Hb.
      apply BR in Ha as (a' & Ha & ->). destruct Hb as (b' & Hb & ->). rewrite to_world_dist by done.
      refine (rounded_apart (eq p) (in_box h) p q r 0 (c_thr c) _ NP _ a' b' (proj1 (ball_rounded _ _ _) Ha) _); [lra|rewrite Rplus_0_r; done|].
      exists b'. split; [done|]. unfold GeoModel.dist, len. replace (lsq (sub3 b' b')) with 0 by (unfold lsq, dot3, sub3; cbn [vx vy vz]; ring). rewrite sqrt_0. lra.
    - apply rltb_false in E. assert (rleb (lsq (sub3 p q)) eps = false) as ->.
      { destruct (rleb _ eps) eqn:F; [|done]. apply rleb_true in F. lra. }
      cbn [mbind res_bind]. fold (len (sub3 p q)). set (n := div3 (sub3 p q) (len (sub3 p q))).
      eexists. split; [done|]. split; [done|]. intros pt Hp. apply elem_of_list_singleton in Hp. subst pt.
      assert (D : len (sub3 p q) <= r + c_thr c). { pose proof (len_sq (sub3 p q)). pose proof (len_nonneg (sub3 p q)). nra. }
      split; [|cbn [p_dist]; lra]. unfold contact_point, world_a, world_b. cbn [p_a p_b p_normal p_dist]. rewrite sb_pivot by done.
      apply (contact_ext (placed (c_posB c) (c_ornB c) (ball p r)) _ (placed (c_posB c) (c_ornB c) (in_box h))); [intros x; rewrite <- BR; done|done|].
      apply contact_world; [done|].
      assert (K : contact (eq p) (in_box h) p q n (len (sub3 p q))) by (apply nearest_contact; auto using point_convex, box_convex; lra).
      pose proof (rounded_contact _ _ _ _ _ _ r 0 Hr (Rle_refl 0) K) as K'.
      replace (add3 q (scl 0 n)) with q in K' by (vec; ring). rewrite Rminus_0_r in K'.
      revert K'. apply contact_ext.
      + intros x. rewrite <- ball_rounded. done.
      + intros x. split; [|intros Hx; exists x; split; [done|]].
        * intros (y & Hy & Dy). assert (Z : lsq (sub3 x y) <= 0 * 0) by (apply dist_le_r; [lra|done]).
          assert (lsq (sub3 x y) = 0) as Z' by (pose proof (lsq_nonneg (sub3 x y)); lra). apply lsq_zero in Z'.
          replace x with y; [done|]. apply (f_equal vx) in Z' as X1; apply (f_equal vy) in Z' as X2; apply (f_equal vz) in Z' as X3.
          unfold sub3, vec0 in X1, X2, X3; cbn [vx vy vz] in X1, X2, X3. apply v3_eq; lra.
        * unfold GeoModel.dist, len. replace (lsq (sub3 x x)) with 0 by (unfold lsq, dot3, sub3; cbn [vx vy vz]; ring). rewrite sqrt_0. lra.
  Qed.
  (** The centre in the box: all but the distance is right *)
  Lemma sphere_box_in : in_box h p →
    ∃ pt q, sphere_box r h c = Ok [pt] ∧ nearest (on_box h) p q ∧
      contact (ball (c_posA c) r) (placed (c_posB c) (c_ornB c) (in_box h)) (world_a c pt) (world_b c pt) (p_normal pt) (- GeoModel.dist p q - r) ∧
      p_dist pt = - (vz h + vz p) - r.
  Proof.
    intros I. pose proof Hc as [TA TB]. pose proof eps_pos as EP. unfold sphere_box. fold cb. fold p.
    assert (Q : closest_point_box_outside h p = p).
    { destruct I as (I1 & I2 & I3). unfold closest_point_box_outside. vec; rewrite Rmin_right, Rmax_right by lra; done. }
    rewrite Q. assert (Z : lsq (sub3 p p) = 0) by (unfold lsq, dot3, sub3; cbn [vx vy vz]; ring). rewrite Z.
    assert (rltb ((r + c_thr c) * (r + c_thr c)) 0 = false) as -> by (apply rltb_false; nra).
    assert (rleb 0 eps = true) as -> by (apply rleb_true; lra).
    assert (∃ d q n, closest_point_box_inside h p = Ok (d, q, n)) as (d & q & n & E).
    { unfold closest_point_box_inside, assert_. destruct I as ((? & ?) & (? & ?) & (? & ?)). unfold rleb. repeat (destruct Rle_dec; [|lra]). simpl. eauto. }
    rewrite E. cbn [mbind res_bind]. destruct (inside_ok _ _ _ _ _ E) as (_ & NB & Un & Eq & Ed & Out).
    do 2 eexists. split; [done|]. split; [exact NB|]. split; [|cbn [p_dist]; rewrite Ed; done].
    unfold world_a, world_b. cbn [p_a p_b p_normal]. rewrite sb_pivot by done.
    apply (contact_ext (placed (c_posB c) (c_ornB c) (ball p r)) _ (placed (c_posB c) (c_ornB c) (in_box h))).
    { intros x. rewrite ball_placed, sb_centre by done. done. } { done. }
    apply contact_world; [done|]. set (dd := GeoModel.dist p q) in *.
    split_and!; [apply dist_off; done|apply NB|done|rewrite Eq; vec; ring|].
    intros a b Ha Hb. specialize (Out b Hb). unfold ball in Ha. rewrite gdist_sym in Ha. pose proof (dot_le_len p a n Un) as L.
    assert (Eq' : dot3 q n = dot3 p n + dd). { rewrite Eq, dot_add_l, dot_scl_l. unfold unit3 in Un. rewrite Un. ring. }
    rewrite dot_sub_l in Out |- *. lra.
  Qed.
  (** Just outside the box, the assertion that the centre is inside fails *)
  Lemma sphere_box_near : ¬ in_box h p → lsq (sub3 p (closest_point_box_outside h p)) <= eps →
    lsq (sub3 p (closest_point_box_outside h p)) <= r * r → sphere_box r h c = AssertFail.
  Proof.
    intros I E Er. unfold sphere_box. fold cb. fold p.
    assert (rltb ((r + c_thr c) * (r + c_thr c)) (lsq (sub3 p (closest_point_box_outside h p))) = false) as -> by (apply rltb_false; nra).
    assert (rleb (lsq (sub3 p (closest_point_box_outside h p))) eps = true) as -> by (apply rleb_true; lra).
    assert (closest_point_box_inside h p = AssertFail) as ->; [|done].
    unfold closest_point_box_inside, assert_. destruct (_ && _) eqn:F; [|done]. exfalso. apply I.
    apply andb_prop in F as [F1 F2]. apply andb_prop in F1 as [F1 F3]. apply andb_prop in F1 as [F1 F4].
    apply andb_prop in F2 as [F2 F5]. apply andb_prop in F2 as [F2 F6]. rewrite rleb_true in *. unfold in_box. lra.
  Qed.
End sphere_box.

(** ** Cylinder and sphere *)
Lemma cylinder_sphere_short ra hl a rb c : qlsq (c_ornA c) = 1 → 4 * hl * hl <= eps → cylinder_sphere ra hl a rb c = AssertFail.
Proof.
  intros TA Hl. unfold cylinder_sphere, assert_. pose proof (axis_unit a (c_ornA c) TA) as UA. set (ax := axis_vec_q a (c_ornA c)) in *.
  set (v := sub3 (sub3 _ _) (add3 _ _)). assert (E : dot3 v v = 4 * hl * hl).
  { replace (dot3 v v) with (4 * hl * hl * dot3 ax ax) by (unfold v, dot3, sub3, add3, scl; cbn [vx vy vz]; ring). rewrite UA. ring. }
  rewrite E. assert (rltb eps (4 * hl * hl) = false) as -> by (apply rltb_false; lra). done.
Qed.
Lemma cylinder_sphere_ok ra hl a rb c : turned c → 0 < ra → 0 <= hl → 0 <= rb → 0 <= c_thr c → eps < 4 * hl * hl →
  let ax := axis_vec_q a (c_ornA c) in
  let A := cylinder (c_posA c) ax ra hl in
  let s := axial (c_posA c) ax (c_posB c) in
  let foot := add3 (c_posA c) (scl s ax) in
  (- hl < s < hl → (foot = c_posB c ∧ dot3 ax ey = 0) ∨ eps < lsq (sub3 foot (c_posB c))) →
  (¬ (- hl < s < hl) → ∀ q, nearest A (c_posB c) q → clear_of q (c_posB c)) →
  ∃ l, cylinder_sphere ra hl a rb c = Ok l ∧ contacts A (ball (c_posB c) rb) c l.
Proof.
  intros [TA TB] Ra Hh Rb Ht Hl. cbv zeta. unfold cylinder_sphere, assert_. pose proof eps_pos as EP.
  pose proof (axis_unit a (c_ornA c) TA) as UA. set (ax := axis_vec_q a (c_ornA c)) in *. set (x := c_posA c) in *. set (y := c_posB c) in *.
  set (s := axial x ax y). intros C1 C2.
  set (v0 := add3 x (scl hl ax)). set (v1 := sub3 x (scl hl ax)).
  assert (HP : 0 < hl). { destruct (Rle_dec hl 0); [assert (hl = 0) by lra; subst; lra|lra]. }
  assert (Dn : dot3 (sub3 v1 v0) (sub3 v1 v0) = 4 * hl * hl).
  { replace (dot3 _ _) with (4 * hl * hl * dot3 ax ax) by (unfold v0, v1, dot3, sub3, add3, scl; cbn [vx vy vz]; ring). rewrite UA. ring. }
  assert (Wv : dot3 (sub3 y v0) (sub3 v1 v0) = 2 * hl * (hl - s)).
  { unfold s, axial. replace (dot3 _ _) with (2 * hl * (hl * dot3 ax ax - dot3 (sub3 y x) ax)) by (unfold v0, v1, dot3, sub3, add3, scl; cbn [vx vy vz]; ring).
    rewrite UA. ring. }
  rewrite Dn, Wv. assert (rltb eps (4 * hl * hl) = true) as -> by (apply rltb_true; done). cbn [mbind res_bind].
  set (t := 2 * hl * (hl - s) / (4 * hl * hl)). assert (Et : t = (hl - s) / (2 * hl)) by (unfold t; field; lra).
  assert (Eh : t * (2 * hl) = hl - s) by (rewrite Et; field; lra). clearbody t.
  assert (Low : ∀ n w, unit3 n → dot3 n ax = 0 → cylinder x ax ra hl w → dot3 x n - ra <= dot3 w n).
  { intros n w Hn Hna [Q1 Q2]. pose proof (dot_le_len (add3 x (scl (dot3 (sub3 w x) ax) ax)) w n Hn) as L. rewrite gdist_sym in L.
    rewrite dot_add_l, dot_scl_l, (dot_comm ax), Hna in L. lra. }
  destruct (rltb 0 t && rltb t 1) eqn:B.
  - apply andb_prop in B as [B1 B2]. apply rltb_true in B1, B2. assert (Hs : - hl < s < hl) by (split; nra). specialize (C1 Hs). clear C2.
    assert (Ep : add3 v0 (scl t (sub3 v1 v0)) = add3 x (scl s ax)).
    { unfold v0, v1. vec; rewrite <- ?Rmult_assoc; replace s with (hl - t * (2 * hl)) by lra; ring. }
    rewrite Ep. set (f := add3 x (scl s ax)) in *.
    assert (Da : dot3 (sub3 f y) ax = 0).
    { unfold f, s, axial. rewrite dot_sub_l, dot_add_l, dot_scl_l, UA, dot_sub_l. ring. }
    assert (Dfx : ∀ n, dot3 n ax = 0 → dot3 f n = dot3 x n). { intros n Hn. unfold f. rewrite dot_add_l, dot_scl_l, (dot_comm ax), Hn. ring. }
    assert (MemR : ∀ n r', unit3 n → dot3 n ax = 0 → 0 <= r' <= ra → cylinder x ax ra hl (sub3 f (scl r' n))).
    { intros n r' Hn Hna Hr'. assert (AX' : dot3 (sub3 (sub3 f (scl r' n)) x) ax = s).
      { rewrite !dot_sub_l, dot_scl_l, Hna. unfold f. rewrite dot_add_l, dot_scl_l, UA. ring. }
      unfold cylinder. rewrite AX'. split; [lra|]. fold f. pose proof (dist_off f n r' Hn). lra. }
    destruct (rltb _ (lsq (sub3 f y))) eqn:E.
    + apply rltb_true in E. eexists. split; [done|]. split; [|intros p Hp; inversion Hp]. intros _ u w Hu Hw.
      assert (Pp : 0 < lsq (sub3 f y)) by (pose proof (Rle_0_sqr (ra + rb + c_thr c)); unfold Rsqr in *; lra).
      set (n := div3 (sub3 f y) (len (sub3 f y))). assert (Hn : unit3 n) by (apply unit_div; done).
      assert (Hna : dot3 n ax = 0) by (unfold n; rewrite div_scl, dot_scl_l, Da; ring).
      pose proof (Low n u Hn Hna Hu) as L1. unfold ball in Hw. pose proof (dot_le_len w y n Hn) as L2. pose proof (dot_le_len u w n Hn) as L3.
      assert (F : dot3 (sub3 f y) n = len (sub3 f y)).
      { rewrite <- (scl_div (sub3 f y)) at 1 by done. fold n. rewrite dot_scl_l. unfold unit3 in Hn. rewrite Hn. ring. }
      rewrite dot_sub_l, (Dfx n Hna) in F.
      assert (ra + rb + c_thr c < len (sub3 f y)). { rewrite <- len_sq in E. pose proof (len_nonneg (sub3 f y)). nra. }
      lra.
    + apply rltb_false in E. eexists. split; [done|]. split; [done|]. intros p Hp. apply elem_of_list_singleton in Hp. subst p.
      fold (len (sub3 f y)). set (n := if rltb eps (lsq (sub3 f y)) then _ else _).
      assert (K : unit3 n ∧ dot3 n ax = 0 ∧ sub3 f y = scl (len (sub3 f y)) n).
      { unfold n. destruct (rltb eps (lsq (sub3 f y))) eqn:G.
        - apply rltb_true in G. split_and!; [apply unit_div; lra|rewrite div_scl, dot_scl_l, Da; ring|symmetry; apply scl_div; lra].
        - apply rltb_false in G. destruct C1 as [[-> Y]|?]; [|lra]. split_and!; [apply unit_ey|rewrite dot_comm; done|].
          unfold len. replace (lsq (sub3 y y)) with 0 by (unfold lsq, dot3, sub3; cbn [vx vy vz]; ring). rewrite sqrt_0. vec; ring. }
      destruct K as (Hn & Hna & Kd).
      assert (D : len (sub3 f y) <= ra + rb + c_thr c). { pose proof (len_sq (sub3 f y)). pose proof (len_nonneg (sub3 f y)). nra. }
      split; [|cbn [p_dist]; lra]. unfold contact_point, world_a, world_b. cbn [p_a p_b p_normal p_dist]. rewrite !world_rot by done. fold x y.
      replace (add3 x (sub3 (sub3 f (scl ra n)) x)) with (sub3 f (scl ra n)) by (vec; ring). set (ll := len (sub3 f y)) in *. clearbody ll.
      assert (BL : ball y rb (add3 y (scl rb n))).
      { unfold ball. apply dist_le_r; [done|]. replace (lsq _) with (rb * rb * lsq n) by (unfold lsq, dot3, sub3, add3, scl; cbn [vx vy vz]; ring). rewrite (unit_lsq n Hn). lra. }
      split_and!; [apply MemR; auto; lra|exact BL|exact Hn| |].
      * apply (f_equal vx) in Kd as X1; apply (f_equal vy) in Kd as X2; apply (f_equal vz) in Kd as X3.
        unfold sub3, scl in X1, X2, X3; cbn [vx vy vz] in X1, X2, X3. vec; lra.
      * intros u w Hu Hw. pose proof (Low n u Hn Hna Hu) as L1. unfold ball in Hw. pose proof (dot_le_len w y n Hn) as L2.
        assert (F : dot3 (sub3 f y) n = ll) by (rewrite Kd, dot_scl_l; unfold unit3 in Hn; rewrite Hn; ring).
        rewrite dot_sub_l, (Dfx n Hna) in F. rewrite dot_sub_l. lra.
  - assert (Hs : ¬ (- hl < s < hl)).
    { intros [S1 S2]. apply andb_false_iff in B as [B|B]; apply rltb_false in B; nra. }
    specialize (C2 Hs). clear C1 B. set (dp := if rltb t (1 / 2) then v0 else v1).
    assert (Cap : ∃ e, (e = 1 ∧ hl <= s ∨ e = -1 ∧ s <= - hl) ∧ dp = add3 x (scl (e * hl) ax) ∧ (if rltb (1 / 2) t then 1 else -1) = - e).
    { unfold dp. assert (s <= - hl ∨ hl <= s) as [S|S] by lra.
      - exists (-1). assert (1 <= t) by nra. assert (rltb t (1 / 2) = false) as -> by (apply rltb_false; lra).
        assert (rltb (1 / 2) t = true) as -> by (apply rltb_true; lra). split_and!; [auto|unfold v1; vec; ring|ring].
      - exists 1. assert (t <= 0) by nra. assert (rltb t (1 / 2) = true) as -> by (apply rltb_true; lra).
        assert (rltb (1 / 2) t = false) as -> by (apply rltb_false; lra). split_and!; [auto|unfold v0; vec; ring|ring]. }
    destruct Cap as (e & He & Edp & Esg). rewrite Esg. clearbody dp.
    assert (∃ d q, closest_point_disc dp (c_ornA c) ra a y = Ok (d, q)) as (d & q & E).
    { unfold closest_point_disc. destruct (rltb _ (ra * ra)) eqn:E; [eauto|]. apply rltb_false in E.
      destruct Req_EM_T as [H|]; [|eauto]. apply sqrt_eq_0 in H; [|apply lsq_nonneg]. nra. }
    rewrite E. cbn [mbind res_bind]. destruct (disc_ok _ _ _ _ _ _ _ TA Ra E) as [Ed [N1 N2]]. fold ax in N1, N2.
    assert (ee : e * e = 1) by (destruct He as [[-> _]|[-> _]]; lra).
    (* The disc is part of the cylinder, and the nearest part *)
    assert (DC : ∀ w, on_disc dp ax ra w → cylinder x ax ra hl w).
    { intros w [W1 W2]. assert (Aw : dot3 (sub3 w x) ax = e * hl).
      { rewrite Edp in W1. rewrite dot_sub_l, dot_add_l, dot_scl_l, UA in W1. rewrite dot_sub_l. lra. }
      unfold cylinder. rewrite Aw. rewrite <- Edp. split; [|done]. destruct He as [[-> _]|[-> _]]; lra. }
    assert (CD : ∀ w, cylinder x ax ra hl w → on_disc dp ax ra (add3 w (scl (e * hl - dot3 (sub3 w x) ax) ax)) ∧
       GeoModel.dist y (add3 w (scl (e * hl - dot3 (sub3 w x) ax) ax)) <= GeoModel.dist y w).
    { intros w [W1 W2]. set (u := dot3 (sub3 w x) ax) in *.
      assert (Du : dot3 w ax = u + dot3 x ax) by (unfold u; rewrite dot_sub_l; ring).
      assert (Ds : dot3 y ax = s + dot3 x ax) by (unfold s, axial; rewrite dot_sub_l; ring).
      split; [split|].
      - rewrite Edp, dot_sub_l, !dot_add_l, !dot_scl_l, UA, Du. ring.
      - replace (GeoModel.dist (add3 w (scl (e * hl - u) ax)) dp) with (GeoModel.dist w (add3 x (scl u ax))); [done|].
        unfold GeoModel.dist. f_equal. rewrite Edp. vec; ring.
      - apply dist_le. set (m := e * hl - u). 
        replace (lsq (sub3 y (add3 w (scl m ax)))) with (lsq (sub3 y w) - 2 * m * dot3 (sub3 y w) ax + m * m * dot3 ax ax)
          by (unfold lsq, dot3, sub3, add3, scl; cbn [vx vy vz]; ring).
        rewrite UA, dot_sub_l, Du, Ds. unfold m. destruct He as [[-> S]|[-> S]]; nra. }
    assert (NC : nearest (cylinder x ax ra hl) y q).
    { split; [apply DC; done|]. intros w Hw. destruct (CD w Hw) as [Z1 Z2]. specialize (N2 _ Z1). lra. }
    specialize (C2 q NC).
    assert (CV : convex (cylinder x ax ra hl)).
    { intros w w' m Hw Hw' Hm. apply cylinder_iff in Hw as [W1 W2]; [|done|lra]. apply cylinder_iff in Hw' as [W1' W2']; [|done|lra].
      apply cylinder_iff; [done|lra|]. unfold axial, rad2, axial in *.
      replace (sub3 (add3 w (scl m (sub3 w' w))) x) with (add3 (scl (1 - m) (sub3 w x)) (scl m (sub3 w' x))) by (vec; ring).
      set (g := sub3 w x) in *. set (g' := sub3 w' x) in *. clearbody g g'. rewrite dot_add_l, !dot_scl_l. split; [nra|].
      set (h1 := sub3 g (scl (dot3 g ax) ax)). set (h2 := sub3 g' (scl (dot3 g' ax) ax)).
      assert (L1 : lsq h1 = lsq g - dot3 g ax * dot3 g ax).
      { unfold h1. replace (lsq _) with (lsq g - 2 * dot3 g ax * dot3 g ax + dot3 g ax * dot3 g ax * dot3 ax ax) by (unfold lsq, dot3, sub3, scl; cbn [vx vy vz]; ring). rewrite UA. ring. }
      assert (L2 : lsq h2 = lsq g' - dot3 g' ax * dot3 g' ax).
      { unfold h2. replace (lsq _) with (lsq g' - 2 * dot3 g' ax * dot3 g' ax + dot3 g' ax * dot3 g' ax * dot3 ax ax) by (unfold lsq, dot3, sub3, scl; cbn [vx vy vz]; ring). rewrite UA. ring. }
      assert (LM : lsq (add3 (scl (1 - m) g) (scl m g')) - ((1 - m) * dot3 g ax + m * dot3 g' ax) * ((1 - m) * dot3 g ax + m * dot3 g' ax)
                   = (1 - m) * lsq h1 + m * lsq h2 - m * (1 - m) * lsq (sub3 h1 h2)).
      { rewrite L1, L2. replace (lsq (sub3 h1 h2)) with (lsq h1 + lsq h2 - 2 * dot3 h1 h2) by (unfold lsq, dot3, sub3; cbn [vx vy vz]; ring).
        assert (dot3 h1 h2 = dot3 g g' - dot3 g ax * dot3 g' ax) as ->.
        { transitivity (dot3 g g' - 2 * dot3 g ax * dot3 g' ax + dot3 g ax * dot3 g' ax * dot3 ax ax);
            [unfold h1, h2, dot3, sub3, scl; cbn [vx vy vz]; ring|rewrite UA; ring]. }
        rewrite L1, L2. unfold lsq, dot3, add3, scl; cbn [vx vy vz]. ring. }
      rewrite LM, L1, L2. pose proof (lsq_nonneg (sub3 h1 h2)) as Q0.
      set (z1 := lsq g - _) in *. set (z2 := lsq g' - _) in *. set (z3 := lsq (sub3 h1 h2)) in *. clearbody z1 z2 z3. set (rr := ra * ra) in *. clearbody rr.
      assert (0 <= m * (1 - m) * z3) by (apply Rmult_le_pos; [apply Rmult_le_pos; lra|done]). nra. }
    assert (NP : nearest_pair (cylinder x ax ra hl) (eq y) q y).
    { destruct NC as [Q1 Q2]. split_and!; try done. intros w ? Hw <-. rewrite !(gdist_sym _ y). apply Q2. done. }
    assert (EdS : d = lsq (sub3 q y)) by (rewrite Ed; unfold lsq, dot3, sub3; cbn [vx vy vz]; ring). rewrite EdS. clear Ed EdS.
    assert (ZR : ∀ w, cylinder x ax ra hl w → rounded (cylinder x ax ra hl) 0 w).
    { intros w Hw. exists w. split; [done|]. unfold GeoModel.dist, len. replace (lsq (sub3 w w)) with 0 by (unfold lsq, dot3, sub3; cbn [vx vy vz]; ring). rewrite sqrt_0. lra. }
    destruct (rltb _ (lsq (sub3 q y))) eqn:F.
    + apply rltb_true in F. eexists. split; [done|]. split; [|intros p Hp; inversion Hp]. intros _ u w Hu Hw.
      refine (rounded_apart _ _ q y 0 rb _ _ NP _ u w (ZR u Hu) (proj1 (ball_rounded _ _ _) Hw)); [lra|rewrite Rplus_0_l; done].
    + apply rltb_false in F. eexists. split; [done|]. split; [done|]. intros p Hp. apply elem_of_list_singleton in Hp. subst p.
      fold (len (sub3 q y)). set (n := if rltb eps (lsq (sub3 q y)) then _ else _).
      assert (K : contact (cylinder x ax ra hl) (eq y) q y n (len (sub3 q y))).
      { unfold n. destruct (rltb eps (lsq (sub3 q y))) eqn:G.
        - apply rltb_true in G. apply nearest_contact; auto using point_convex. lra.
        - apply rltb_false in G. destruct C2 as [Eqy|?]; [|lra]. rewrite Eqy in *.
          unfold len. replace (lsq (sub3 y y)) with 0 by (unfold lsq, dot3, sub3; cbn [vx vy vz]; ring). rewrite sqrt_0.
          split_and!; [apply NC|done| |vec; ring|].
          + unfold unit3. rewrite dot_scl_l, dot_scl_r, UA. lra.
          + intros w ? [W1 _] <-. destruct N1 as [N1 _]. rewrite Edp, dot_sub_l, dot_add_l, dot_scl_l, UA in N1.
            rewrite dot_scl_r, dot_sub_l. rewrite dot_sub_l in W1. destruct He as [[-> _]|[-> _]]; nra. }
      assert (D : len (sub3 q y) <= rb + c_thr c). { pose proof (len_sq (sub3 q y)). pose proof (len_nonneg (sub3 q y)). nra. }
      split; [|cbn [p_dist]; lra]. unfold contact_point, world_a, world_b. cbn [p_a p_b p_normal p_dist]. rewrite !world_rot by done. fold x y.
      replace (add3 x (sub3 q x)) with q by (vec; ring). set (ll := len (sub3 q y)) in *. clearbody ll n.
      destruct K as (_ & _ & Hn & Kd & KG).
      split_and!; [apply NC| |exact Hn| |].
      * unfold ball. apply dist_le_r; [done|]. replace (lsq _) with (rb * rb * lsq n) by (unfold lsq, dot3, sub3, add3, scl; cbn [vx vy vz]; ring). rewrite (unit_lsq n Hn). lra.
      * apply (f_equal vx) in Kd as X1; apply (f_equal vy) in Kd as X2; apply (f_equal vz) in Kd as X3.
        unfold sub3, scl in X1, X2, X3; cbn [vx vy vz] in X1, X2, X3. vec; lra.
      * intros u w Hu Hw. specialize (KG u y Hu eq_refl). unfold ball in Hw. pose proof (dot_le_len w y n Hn) as L2. rewrite dot_sub_l in *. lra.
Qed.
