(** Proofs about RayModel.v: triangles, meshes, compounds and the choice among bodies. *)
From Verif Require Import Outcome BoxModel GeoModel RotSpec RotProofs NearModel NearSpec NearProofs RayModel RaySpec RayProofs.
From Coq Require Import Reals Lra Psatz.
Local Open Scope R_scope.

(** ** Triangles *)
Lemma plane_basis (e1 e2 q : v3) :
  let N := cross3 e1 e2 in
  scl (lsq N) q = add3 (add3 (scl (dot3 (cross3 q e2) N) e1) (scl (dot3 (cross3 e1 q) N) e2)) (scl (dot3 q N) N).
Proof.
  cbn zeta. destruct e1, e2, q. unfold lsq, scl, add3, cross3, dot3; simpl. f_equal; ring.
Qed.

Lemma tri_edges v0 v1 v2 n x :
  winding v0 v1 v2 n → dot3 (sub3 x v0) n = 0 →
  let edge a b := dot3 (cross3 n (sub3 b a)) (sub3 x a) in
  (0 <= edge v0 v1 ∧ 0 <= edge v1 v2 ∧ 0 <= edge v2 v0) ↔ on_triangle v0 v1 v2 x.
Proof.
  intros (Hn & k & Hk & En) Hx edge.
  set (e1 := sub3 v1 v0) in *. set (e2 := sub3 v2 v0) in *. set (q := sub3 x v0) in *. set (N := cross3 e1 e2) in *.
  assert (Ev1 : v1 = add3 v0 e1) by (unfold e1; destruct v0, v1; unfold add3, sub3; simpl; f_equal; ring).
  assert (Ev2 : v2 = add3 v0 e2) by (unfold e2; destruct v0, v2; unfold add3, sub3; simpl; f_equal; ring).
  assert (Ex : x = add3 v0 q) by (unfold q; destruct v0, x; unfold add3, sub3; simpl; f_equal; ring).
  set (w := dot3 (cross3 e1 q) N). set (v := dot3 (cross3 q e2) N).
  assert (D1 : edge v0 v1 = k * w).
  { unfold edge, w, N. rewrite En, Ev1, Ex. clearbody e1 e2 q. clear. destruct v0, e1, e2, q. unfold dot3, cross3, add3, sub3, scl; simpl. ring. }
  assert (D3 : edge v2 v0 = k * v).
  { unfold edge, v, N. rewrite En, Ev2, Ex. clearbody e1 e2 q. clear. destruct v0, e1, e2, q. unfold dot3, cross3, add3, sub3, scl; simpl. ring. }
  assert (D2 : edge v1 v2 = k * (lsq N - v - w)).
  { unfold edge, w, v, N. rewrite En, Ev1, Ev2, Ex. clearbody e1 e2 q. clear. destruct v0, e1, e2, q. unfold lsq, dot3, cross3, add3, sub3, scl; simpl. ring. }
  assert (HN : 0 < lsq N).
  { pose proof (lsq_nonneg N). destruct (Rle_lt_or_eq_dec _ _ H) as [|Z]; [done|]. exfalso. symmetry in Z. apply lsq_zero in Z.
    unfold unit3 in Hn. rewrite En, Z in Hn. unfold dot3, scl, vec0 in Hn; simpl in Hn. lra. }
  rewrite D1, D2, D3.
  pose proof (plane_basis e1 e2 q) as B. cbn zeta in B. fold N in B. fold w v in B.
  assert (Hq0 : dot3 q N = 0).
  { rewrite En in Hx. assert (dot3 q (scl k N) = k * dot3 q N) as F by (destruct q, N; unfold dot3, scl; simpl; ring).
    rewrite F in Hx. apply Rmult_integral in Hx as [|]; [lra|done]. }
  rewrite Hq0 in B.
  assert (Eq : q = add3 (scl (v / lsq N) e1) (scl (w / lsq N) e2)).
  { clearbody v w. revert B. generalize (lsq N) HN. clear. intros L HL. destruct q, e1, e2, N. unfold scl, add3; simpl. intros [= B1 B2 B3].
    f_equal; apply Rmult_eq_reg_l with L; try lra; rewrite ?B1, ?B2, ?B3; field; lra. }
  split.
  - intros (H1 & H2 & H3). assert (0 <= w) by nra. assert (0 <= v) by nra. assert (0 <= lsq N - v - w) by nra.
    assert (Hi : 0 < / lsq N) by (apply Rinv_0_lt_compat; done).
    exists ((lsq N - v - w) / lsq N), (v / lsq N), (w / lsq N).
    split; [apply Rmult_le_pos; lra|]. split; [apply Rmult_le_pos; lra|]. split; [apply Rmult_le_pos; lra|].
    split; [field; lra|]. rewrite Ev1, Ev2, Ex, Eq.
    assert (Hs : (lsq N - v - w) / lsq N = 1 - v / lsq N - w / lsq N) by (field; lra). rewrite Hs.
    clear. destruct v0, e1, e2. unfold scl, add3; simpl. f_equal; ring.
  - intros (u & v' & w' & Hu & Hv & Hw & Hs & Hx2).
    assert (Eq2 : q = add3 (scl v' e1) (scl w' e2)).
    { unfold q, e1, e2. rewrite Hx2. assert (u = 1 - v' - w') as -> by lra. clear. destruct v0, v1, v2. unfold sub3, scl, add3; simpl. f_equal; ring. }
    assert (v = v' * lsq N) as ->.
    { unfold v, N. rewrite Eq2. clearbody e1 e2. clear. destruct e1, e2. unfold lsq, dot3, cross3, add3, scl; simpl. ring. }
    assert (w = w' * lsq N) as ->.
    { unfold w, N. rewrite Eq2. clearbody e1 e2. clear. destruct e1, e2. unfold lsq, dot3, cross3, add3, scl; simpl. ring. }
    clear -Hk HN Hu Hv Hw Hs. set (L := lsq N) in *. clearbody L. assert (0 <= k * L) by nra. split_and!; nra.
Qed.

Lemma triangle_plane v0 v1 v2 n x : winding v0 v1 v2 n → on_triangle v0 v1 v2 x → dot3 (sub3 x v0) n = 0.
Proof.
  intros (_ & k & _ & ->) (u & v & w & _ & _ & _ & Hs & ->). assert (u = 1 - v - w) as -> by lra.
  clear. destruct v0, v1, v2. unfold dot3, cross3, scl, add3, sub3; simpl. ring.
Qed.

Lemma tri_ok p0 p1 v0 v1 v2 n :
  winding v0 v1 v2 n → tri_clear p0 p1 v0 n →
  ∀ t, intersect_segment_triangle p0 p1 v0 v1 v2 n = Some t ↔ 0 <= t <= 1 ∧ on_triangle v0 v1 v2 (along p0 p1 t).
Proof.
  intros Hw Hc t. unfold tri_clear in Hc. unfold intersect_segment_triangle. pose proof eps_pos as He.
  set (d := dot3 (sub3 p1 p0) n) in *. set (e := dot3 (sub3 v0 p0) n) in *.
  assert (Hpl : ∀ u, dot3 (sub3 (along p0 p1 u) v0) n = u * d - e).
  { intros u. unfold d, e, along. destruct p0, p1, v0, n. unfold dot3, sub3, add3, scl; simpl. ring. }
  destruct Hc as [Hc|[Hc1 Hc2]].
  - assert (rltb eps (Rabs d) = true) as -> by (apply rltb_true; done).
    assert (Hd : d ≠ 0). { intros Z. rewrite Z, Rabs_R0 in Hc. lra. }
    set (s := e / d). assert (Es : s * d - e = 0) by (unfold s; field; done).
    assert (Huniq : on_triangle v0 v1 v2 (along p0 p1 t) → t = s).
    { intros Ht. apply (triangle_plane _ _ _ n) in Ht; [|done]. rewrite Hpl in Ht. apply Rmult_eq_reg_r with d; [lra|done]. }
    pose proof (tri_edges v0 v1 v2 n (along p0 p1 s) Hw ltac:(rewrite Hpl; done)) as T. cbn zeta in T.
    rewrite lerp_along.
    destruct (rltb s 0 || rltb 1 s) eqn:E1.
    { split; [discriminate|]. intros [Ht Htr]. apply Huniq in Htr. subst t. apply orb_true_iff in E1 as [E1|E1]; apply rltb_true in E1; lra. }
    apply orb_false_iff in E1 as [E1 E2]. apply rltb_false in E1, E2.
    destruct (_ || _ || _) eqn:E3.
    + split; [discriminate|]. intros [Ht Htr]. pose proof (Huniq Htr). subst t. apply T in Htr as (T1 & T2 & T3).
      apply orb_true_iff in E3 as [E3|E3]; [apply orb_true_iff in E3 as [E3|E3]|]; apply rltb_true in E3; lra.
    + apply orb_false_iff in E3 as [E3 E5]. apply orb_false_iff in E3 as [E3 E4]. apply rltb_false in E3, E4, E5.
      split.
      * intros [= <-]. split; [lra|]. apply T. split_and!; lra.
      * intros [_ Htr]. rewrite (Huniq Htr). done.
  - rewrite Hc1, Rabs_R0. assert (rltb eps 0 = false) as -> by (unfold rltb; destruct Rlt_dec; [lra|done]).
    assert (rltb eps (Rabs e) = true) as -> by (apply rltb_true; done).
    split; [discriminate|]. intros [_ Ht]. apply (triangle_plane _ _ _ n) in Ht; [|done]. rewrite Hpl, Hc1 in Ht.
    exfalso. assert (e = 0) as Z by lra. rewrite Z, Rabs_R0 in Hc2. lra.
Qed.

(** a segment in the plane of the triangle: only the start is looked at *)
Lemma tri_coplanar p0 p1 v0 v1 v2 n :
  winding v0 v1 v2 n → dot3 (sub3 p1 p0) n = 0 → dot3 (sub3 v0 p0) n = 0 →
  (on_triangle v0 v1 v2 p0 → intersect_segment_triangle p0 p1 v0 v1 v2 n = Some 0) ∧
  (¬ on_triangle v0 v1 v2 p0 → intersect_segment_triangle p0 p1 v0 v1 v2 n = None).
Proof.
  intros Hw Hd He0. unfold intersect_segment_triangle. pose proof eps_pos as He. rewrite Hd, He0, Rabs_R0.
  assert (rltb eps 0 = false) as -> by (unfold rltb; destruct Rlt_dec; [lra|done]).
  assert (rltb 0 0 = false) as -> by (unfold rltb; destruct Rlt_dec; [lra|done]).
  assert (rltb 1 0 = false) as -> by (unfold rltb; destruct Rlt_dec; [lra|done]). cbn [orb].
  rewrite lerp_along, along_0.
  assert (Hx : dot3 (sub3 p0 v0) n = 0).
  { assert (dot3 (sub3 p0 v0) n = - dot3 (sub3 v0 p0) n) as F by (destruct p0, v0, n; unfold dot3, sub3; simpl; ring). lra. }
  pose proof (tri_edges v0 v1 v2 n p0 Hw Hx) as T. cbn zeta in T.
  destruct (_ || _ || _) eqn:E3.
  - split; [|done]. intros (T1 & T2 & T3)%T. exfalso.
    apply orb_true_iff in E3 as [E3|E3]; [apply orb_true_iff in E3 as [E3|E3]|]; apply rltb_true in E3; lra.
  - split; [done|]. intros Hn. exfalso. apply Hn, T.
    apply orb_false_iff in E3 as [E3 E5]. apply orb_false_iff in E3 as [E3 E4]. apply rltb_false in E3, E4, E5. split_and!; lra.
Qed.

(** ** Choosing the nearest *)
(** meshes *)
Definition tri_hit (c : ray_ctx) (t : tri) : option R :=
  intersect_segment_triangle (rc_p0 c) (rc_p1 c) (t_v0 t) (t_v1 t) (t_v2 t) (t_normal t).

Lemma mesh_ok ts c :
  match raycast_mesh ts c with
  | None => ∀ i t, ts !! i = Some t → tri_hit c t = None
  | Some h => ∃ i t, ts !! i = Some t ∧ tri_hit c t = Some (h_frac h) ∧ h_normal h = t_normal t ∧ h_feature h = FTriangle i ∧
      ∀ j t' f, ts !! j = Some t' → tri_hit c t' = Some f → h_frac h <= f ∧ ((j < i)%nat → h_frac h < f)
  end.
Proof.
  unfold raycast_mesh. induction ts as [|t ts IH] using rev_ind; [done|].
  rewrite imap_app, foldl_app. simpl. rewrite Nat.add_0_r.
  set (cur := foldl _ None (imap pair ts)) in *. unfold mesh_step. fold (tri_hit c t).
  destruct (tri_hit c t) as [f|] eqn:Et.
  - set (h := Hit f (t_normal t) (FTriangle (length ts))).
    destruct (closer h cur) eqn:Ec.
    + exists (length ts), t. split; [apply list_lookup_middle; done|]. split; [done|]. split; [done|]. split; [done|].
      intros j t' f' Hj Hf'. apply lookup_app_Some in Hj as [Hj|[Hl Hj]].
      * unfold closer in Ec. destruct cur as [h'|].
        -- apply rltb_true in Ec. destruct IH as (i & t'' & _ & _ & _ & _ & Hmin). destruct (Hmin j t' f' Hj Hf') as [H1 _].
           simpl in *. split; [lra|intros; lra].
        -- specialize (IH j t' Hj). rewrite IH in Hf'. discriminate.
      * apply list_lookup_singleton_Some in Hj as [Hj ->]. rewrite Et in Hf'. injection Hf' as <-. simpl. split; [lra|lia].
    + unfold closer in Ec. destruct cur as [h'|]; [|discriminate]. apply rltb_false in Ec.
      destruct IH as (i & t'' & Hi & Hh & Hn & Hft & Hmin). exists i, t''. split; [apply lookup_app_l_Some; done|].
      split; [done|]. split; [done|]. split; [done|].
      intros j t' f' Hj Hf'. apply lookup_app_Some in Hj as [Hj|[Hl Hj]]; [eauto|].
      apply list_lookup_singleton_Some in Hj as [Hj ->]. rewrite Et in Hf'. injection Hf' as <-. simpl in Ec. split; [lra|].
      apply lookup_lt_Some in Hi. lia.
  - destruct cur as [h'|].
    + destruct IH as (i & t'' & Hi & Hh & Hn & Hft & Hmin). exists i, t''. split; [apply lookup_app_l_Some; done|].
      split; [done|]. split; [done|]. split; [done|].
      intros j t' f' Hj Hf'. apply lookup_app_Some in Hj as [Hj|[Hl Hj]]; [eauto|].
      apply list_lookup_singleton_Some in Hj as [Hj ->]. rewrite Et in Hf'. discriminate.
    + intros j t' Hj. apply lookup_app_Some in Hj as [Hj|[Hl Hj]]; [eauto|].
      apply list_lookup_singleton_Some in Hj as [Hj ->]. done.
Qed.

Lemma mesh_entry ts c :
  (∀ t, t ∈ ts → winding (t_v0 t) (t_v1 t) (t_v2 t) (t_normal t) ∧ tri_clear (rc_p0 c) (rc_p1 c) (t_v0 t) (t_normal t)) →
  match raycast_mesh ts c with
  | None => ¬ meets_segment (mesh_set ts) (rc_p0 c) (rc_p1 c)
  | Some h => segment_entry (mesh_set ts) (rc_p0 c) (rc_p1 c) (h_frac h) ∧
      ∃ i t, ts !! i = Some t ∧ h_feature h = FTriangle i ∧ h_normal h = t_normal t ∧
        on_triangle (t_v0 t) (t_v1 t) (t_v2 t) (along (rc_p0 c) (rc_p1 c) (h_frac h))
  end.
Proof.
  intros Hc. pose proof (mesh_ok ts c) as M. unfold tri_hit in M. destruct (raycast_mesh ts c) as [h|].
  - destruct M as (i & t & Hi & Hh & Hn & Hf & Hmin). pose proof (elem_of_list_lookup_2 _ _ _ Hi) as Hin.
    destruct (Hc t Hin) as [Hw Hcl]. apply (tri_ok _ _ _ _ _ _ Hw Hcl) in Hh as [Hr Ht].
    split; [|eauto 10]. split; [done|]. split; [exists t; auto|].
    intros u Hu (t' & Hin' & Ht'). destruct (Hc t' Hin') as [Hw' Hcl']. apply elem_of_list_lookup_1 in Hin' as [j Hj].
    apply (Hmin j t' u Hj). apply tri_ok; auto.
  - intros (u & Hu & t & Hin & Ht). destruct (Hc t Hin) as [Hw Hcl]. apply elem_of_list_lookup_1 in Hin as [j Hj].
    specialize (M j t Hj). assert (intersect_segment_triangle (rc_p0 c) (rc_p1 c) (t_v0 t) (t_v1 t) (t_v2 t) (t_normal t) = Some u) as E by (apply tri_ok; auto).
    rewrite M in E. discriminate.
Qed.

(** compounds *)
Lemma nodes_ok orn p0 p1 : ∀ nodes i cur o,
  raycast_nodes orn p0 p1 i nodes cur = Ok o →
  (∀ k n, nodes !! k = Some n → ∃ r, raycast_part (rn_shape n) (RCtx (rn_pos n) (rn_orn n) p0 p1) = Ok r) ∧
  ((o = cur ∧ ∀ k n h, nodes !! k = Some n → raycast_part (rn_shape n) (RCtx (rn_pos n) (rn_orn n) p0 p1) = Ok (Some h) →
     ∃ h', cur = Some h' ∧ h_frac h' <= h_frac h) ∨
   ∃ k n h, nodes !! k = Some n ∧ raycast_part (rn_shape n) (RCtx (rn_pos n) (rn_orn n) p0 p1) = Ok (Some h) ∧
     o = Some (Hit (h_frac h) (rotate orn (h_normal h)) (FChild (i + k) (h_feature h))) ∧
     (∀ h', cur = Some h' → h_frac h < h_frac h') ∧
     ∀ k' n' h', nodes !! k' = Some n' → raycast_part (rn_shape n') (RCtx (rn_pos n') (rn_orn n') p0 p1) = Ok (Some h') →
       h_frac h <= h_frac h' ∧ ((k' < k)%nat → h_frac h < h_frac h')).
Proof.
  induction nodes as [|n nodes IH]; intros i cur o Ho.
  { injection Ho as <-. split; [done|]. left. split; [done|]. done. }
  cbn [raycast_nodes] in Ho. destruct (raycast_part _ _) as [r| | |] eqn:E; try discriminate. cbn [mbind res_bind] in Ho.
  apply IH in Ho as [Hd Ho]. split.
  { intros [|k] n' Hk; [injection Hk as <-; eauto|eauto]. }
  clear IH Hd.
  set (st := match r with None => cur | Some h => if closer h cur then Some (Hit (h_frac h) (rotate orn (h_normal h)) (FChild i (h_feature h))) else cur end) in *.
  assert (Hst : (st = cur ∧ ∀ h, r = Some h → ∃ h', cur = Some h' ∧ h_frac h' <= h_frac h) ∨
    ∃ h, r = Some h ∧ st = Some (Hit (h_frac h) (rotate orn (h_normal h)) (FChild i (h_feature h))) ∧ ∀ h', cur = Some h' → h_frac h < h_frac h').
  { unfold st. destruct r as [h|]; [|left; done]. unfold closer. destruct cur as [h'|].
    - destruct rltb eqn:Er.
      + apply rltb_true in Er. right. exists h. split; [done|]. split; [done|]. intros ? [= <-]. done.
      + apply rltb_false in Er. left. split; [done|]. intros ? [= <-]. eauto.
    - right. exists h. done. }
  clearbody st. destruct Ho as [[-> Ho]|(k & n' & h & Hk & Hh & -> & Hcur & Hmin)].
  - destruct Hst as [[-> Hst]|(h & -> & -> & Hst)].
    + left. split; [done|]. intros [|k] n' h Hk Hh; [|eauto]. injection Hk as <-. rewrite E in Hh. injection Hh as ->. auto.
    + right. exists 0%nat, n, h. split; [done|]. split; [done|]. rewrite Nat.add_0_r. split; [done|]. split; [done|].
      intros [|k'] n' h' Hk' Hh'.
      * injection Hk' as <-. rewrite E in Hh'. injection Hh' as <-. split; [lra|lia].
      * destruct (Ho _ _ _ Hk' Hh') as (h'' & [= <-] & Hle). simpl in Hle. split; [done|lia].
  - right. exists (S k), n', h. split; [done|]. split; [done|].
    split; [do 2 f_equal; f_equal; lia|]. split.
    + intros h' ->. destruct Hst as [[-> Hst]|(h2 & _ & -> & Hst)]; [auto|].
      specialize (Hst h' eq_refl). specialize (Hcur _ eq_refl). simpl in Hcur. lra.
    + intros [|k'] n2 h2 Hk' Hh'.
      * injection Hk' as <-. rewrite E in Hh'. injection Hh' as ->.
        destruct Hst as [[-> Hst]|(h3 & [= <-] & -> & Hst)].
        -- destruct (Hst _ eq_refl) as (h' & -> & Hle). specialize (Hcur _ eq_refl). split; [lra|intros; lra].
        -- specialize (Hcur _ eq_refl). simpl in Hcur. split; [lra|intros; lra].
      * destruct (Hmin _ _ _ Hk' Hh') as [H1 H2]. split; [done|]. intros. apply H2. lia.
Qed.
Lemma compound_ok nodes c o :
  let p0 := to_object (rc_p0 c) (rc_pos c) (rc_orn c) in
  let p1 := to_object (rc_p1 c) (rc_pos c) (rc_orn c) in
  let cast n := raycast_part (rn_shape n) (RCtx (rn_pos n) (rn_orn n) p0 p1) in
  raycast_compound nodes c = Ok o →
  match o with
  | None => ∀ n, n ∈ nodes → cast n = Ok None
  | Some r => ∃ k n h, nodes !! k = Some n ∧ cast n = Ok (Some h) ∧
      r = Hit (h_frac h) (rotate (rc_orn c) (h_normal h)) (FChild k (h_feature h)) ∧
      ∀ k' n' h', nodes !! k' = Some n' → cast n' = Ok (Some h') → h_frac h <= h_frac h' ∧ ((k' < k)%nat → h_frac h < h_frac h')
  end.
Proof.
  intros p0 p1 cast Ho. apply nodes_ok in Ho as [Hd [[-> Ho]|(k & n & h & Hk & Hh & -> & _ & Hmin)]].
  - intros n Hin. apply elem_of_list_lookup_1 in Hin as [k Hk]. destruct (Hd k n Hk) as [[h|] Hr]; [|done].
    destruct (Ho k n h Hk Hr) as (h' & [=] & _).
  - exists k, n, h. auto.
Qed.

(** bodies *)
Lemma bodies_gen p0 p1 : ∀ cs cur o,
  raycast_bodies p0 p1 cs cur = Ok o →
  let cast cd := raycast_body (cd_shape cd) (RCtx (cd_pos cd) (cd_orn cd) p0 p1) in
  (∀ cd, cd ∈ cs → ∃ r, cast cd = Ok r) ∧
  ((o = cur ∧ ∀ k cd h, cs !! k = Some cd → cast cd = Ok (Some h) → ∃ h', cur = Some h' ∧ h_frac (snd h') <= h_frac h) ∨
   ∃ k cd h, cs !! k = Some cd ∧ cast cd = Ok (Some h) ∧ o = Some (cd_ent cd, h) ∧
     (∀ h', cur = Some h' → h_frac h < h_frac (snd h')) ∧
     ∀ k' cd' h', cs !! k' = Some cd' → cast cd' = Ok (Some h') → h_frac h <= h_frac h' ∧ ((k' < k)%nat → h_frac h < h_frac h')).
Proof.
  induction cs as [|cd cs IH]; intros cur o Ho cast.
  { injection Ho as <-. split; [intros cd Hin; inversion Hin|]. left. split; [done|]. done. }
  cbn [raycast_bodies] in Ho. fold (cast cd) in Ho. destruct (cast cd) as [r| | |] eqn:E; try discriminate. cbn [mbind res_bind] in Ho.
  apply IH in Ho as [Hd Ho]. split.
  { intros cd' Hin. apply elem_of_cons in Hin as [->|Hin]; eauto. }
  clear IH Hd.
  set (st := match r with None => cur | Some h => if closer h (snd <$> cur) then Some (cd_ent cd, h) else cur end) in *.
  assert (Hst : (st = cur ∧ ∀ h, r = Some h → ∃ h', cur = Some h' ∧ h_frac (snd h') <= h_frac h) ∨
    ∃ h, r = Some h ∧ st = Some (cd_ent cd, h) ∧ ∀ h', cur = Some h' → h_frac h < h_frac (snd h')).
  { unfold st. destruct r as [h|]; [|left; done]. unfold closer. destruct cur as [h'|]; simpl.
    - destruct rltb eqn:Er.
      + apply rltb_true in Er. right. exists h. split; [done|]. split; [done|]. intros ? [= <-]. done.
      + apply rltb_false in Er. left. split; [done|]. intros ? [= <-]. eauto.
    - right. exists h. done. }
  clearbody st. destruct Ho as [[-> Ho]|(k & n' & h & Hk & Hh & -> & Hcur & Hmin)].
  - destruct Hst as [[-> Hst]|(h & -> & -> & Hst)].
    + left. split; [done|]. intros [|k] n' h Hk Hh; [|eauto]. injection Hk as <-. rewrite E in Hh. injection Hh as ->. auto.
    + right. exists 0%nat, cd, h. split; [done|]. split; [done|]. split; [done|]. split; [done|].
      intros [|k'] n' h' Hk' Hh'.
      * injection Hk' as <-. rewrite E in Hh'. injection Hh' as <-. split; [lra|lia].
      * destruct (Ho _ _ _ Hk' Hh') as (h'' & [= <-] & Hle). simpl in Hle. split; [done|lia].
  - right. exists (S k), n', h. split; [done|]. split; [done|].
    split; [done|]. split.
    + intros h' ->. destruct Hst as [[-> Hst]|(h2 & _ & -> & Hst)]; [auto|].
      specialize (Hst h' eq_refl). specialize (Hcur _ eq_refl). simpl in Hcur. lra.
    + intros [|k'] n2 h2 Hk' Hh'.
      * injection Hk' as <-. rewrite E in Hh'. injection Hh' as ->.
        destruct Hst as [[-> Hst]|(h3 & [= <-] & -> & Hst)].
        -- destruct (Hst _ eq_refl) as (h' & -> & Hle). specialize (Hcur _ eq_refl). split; [lra|intros; lra].
        -- specialize (Hcur _ eq_refl). simpl in Hcur. split; [lra|intros; lra].
      * destruct (Hmin _ _ _ Hk' Hh') as [H1 H2]. split; [done|]. intros. apply H2. lia.
Qed.
Lemma bodies_ok p0 p1 cs o :
  let cast cd := raycast_body (cd_shape cd) (RCtx (cd_pos cd) (cd_orn cd) p0 p1) in
  raycast_bodies p0 p1 cs None = Ok o →
  match o with
  | None => ∀ cd, cd ∈ cs → cast cd = Ok None
  | Some (e, h) => ∃ k cd, cs !! k = Some cd ∧ cast cd = Ok (Some h) ∧ e = cd_ent cd ∧
      ∀ k' cd' h', cs !! k' = Some cd' → cast cd' = Ok (Some h') → h_frac h <= h_frac h' ∧ ((k' < k)%nat → h_frac h < h_frac h')
  end.
Proof.
  intros cast Ho. apply bodies_gen in Ho as [Hd [[-> Ho]|(k & cd & h & Hk & Hh & -> & _ & Hmin)]].
  - intros cd Hin. destruct (Hd cd Hin) as [[h|] Hr]; [|done]. apply elem_of_list_lookup_1 in Hin as [k Hk].
    destruct (Ho k cd h Hk Hr) as (h' & [=] & _).
  - exists k, cd. auto.
Qed.
