(** Property theorems: contact points of a manifold (C13, C14, C45). *)
From Verif Require Import Outcome BoxModel PointModel PointSpec PointProofs PointSlot PointProcess PointFinish PointUpdate PointReach PointExtra.

(** Distances between points are comparable with the largest scalar. *)
Definition finite_dist {V Sc} (G : geo V Sc) : Prop := ∀ a b, g_lt G (g_dist G a b) (g_max G) = true.

Section props.
Context {V Sc X : Type} (G : geo V Sc) (nz : rpoint V X → bool) (dflt : rpoint V X).

(** C13.  After any sequence of updates, clears and manifold creations and
    destructions: every manifold owns a terminating list of num_points ≤ 4
    distinct points that name it as parent; every point is in such a list. *)
Theorem C13_well_formed r : finite_dist G → preach G nz dflt r → well_formed r.
Proof. intros HF Hr. destruct (preach_repr G nz dflt r HF Hr) as (A & HR & HS). by eapply repr_well_formed. Qed.

(** C13.  Updating, clearing and destroying a live manifold always returns, and
    touches no other manifold. *)
Theorem C13_progress r m old : finite_dist G → preach G nz dflt r → contact_list r m = Ok old →
  (∃ r', clear_contact_manifold r m = Ok r' ∧ contact_list r' m = Ok [] ∧
     ∀ m', m' ≠ m → pr_man r' !! m' = pr_man r !! m' ∧ contact_list r' m' = contact_list r m') ∧
  (∃ r', destroy_manifold r m = Ok r' ∧ pr_man r' !! m = None ∧ (∀ x c, pr_cp r' !! x = Some c → cp_parent c ≠ m) ∧
     ∀ m', m' ≠ m → pr_man r' !! m' = pr_man r !! m' ∧ contact_list r' m' = contact_list r m').
Proof.
  intros HF Hr Hold. destruct (preach_repr G nz dflt r HF Hr) as (A & HR & HS).
  assert (Hother : ∀ (A' : gmap nat (list (nat * (rpoint V X * nat)))) f' r' m', repr A' f' r' → A' !! m' = A !! m' →
    pr_man r' !! m' = pr_man r !! m' ∧ contact_list r' m' = contact_list r m').
  { intros A' f' r' m' HR' E. assert (Em : pr_man r' !! m' = pr_man r !! m') by (by rewrite (rp_man _ _ _ HR'), (rp_man _ _ _ HR), E).
    split; [done|]. destruct (A !! m') as [l|] eqn:El.
    - by rewrite (contact_list_ok _ _ _ _ _ HR' E), (contact_list_ok _ _ _ _ _ HR El).
    - unfold contact_list. rewrite Em, (rp_man _ _ _ HR), El. done. }
  destruct (A !! m) as [l|] eqn:El.
  2:{ unfold contact_list in Hold. rewrite (rp_man _ _ _ HR), El in Hold. done. }
  split.
  - destruct (repr_clear A _ r m l HR El) as (r' & Hc & HR'). exists r'. split_and!; [done|..].
    + eapply contact_list_ok; [exact HR'|]. by rewrite lookup_insert.
    + intros m' Hm'. eapply Hother; [exact HR'|]. by rewrite lookup_insert_ne.
  - destruct (repr_destroy_manifold A _ r m l HR El) as (r' & Hc & HR'). exists r'. split_and!; [done|..].
    + rewrite (rp_man _ _ _ HR'), lookup_delete. done.
    + intros x c Hx E. destruct (rp_own _ _ _ HR' x c Hx) as (l' & Hl' & _). rewrite E, lookup_delete in Hl'. done.
    + intros m' Hm'. eapply Hother; [exact HR'|]. by rewrite lookup_delete_ne.
Qed.

(** C13.  One collision update of a live manifold with a legal result: see
    [updated] in PointSpec.v; no other manifold changes. *)
Theorem C13_update r env m result old : finite_dist G → preach G nz dflt r → contact_list r m = Ok old → legal_result nz result →
  ∃ s' new, process G nz dflt false env m result (PSt r [] []) = Ok s' ∧
    contact_list (ps_reg s') m = Ok new ∧ length new ≤ 4 ∧ updated (e_sep env) result old new ∧
    (∀ m', m' ≠ m → pr_man (ps_reg s') !! m' = pr_man r !! m' ∧ contact_list (ps_reg s') m' = contact_list r m').
Proof.
  intros HF Hr Hold Hres. destruct (preach_repr G nz dflt r HF Hr) as (A & HR & HS).
  destruct (A !! m) as [l|] eqn:El.
  2:{ unfold contact_list in Hold. rewrite (rp_man _ _ _ HR), El in Hold. done. }
  rewrite (contact_list_ok _ _ _ _ _ HR El) in Hold. injection Hold as <-.
  destruct (process_seq G nz dflt env m A _ r l result HF HR El (HS _ _ El) Hres) as (s' & l' & news & dels & Ha & Hp & HR' & Hlen).
  exists s', (news_entries (pr_fresh r) news ++ del_ids dels l'). split_and!; [done| |exact Hlen| |].
  - eapply contact_list_ok; [exact HR'|]. by rewrite lookup_insert.
  - apply (a_process_updated G nz dflt env (pr_fresh r) l result l' news dels HF).
    + exact (rp_nodup _ _ _ HR m l El).
    + intros x Hx. exact (rp_old _ _ _ HR m l x El Hx).
    + exact (HS _ _ El).
    + apply Hres.
    + exact Ha.
  - intros m' Hm'. assert (E : <[m := news_entries (pr_fresh r) news ++ del_ids dels l']> A !! m' = A !! m') by (by rewrite lookup_insert_ne).
    assert (Em : pr_man (ps_reg s') !! m' = pr_man r !! m') by (by rewrite (rp_man _ _ _ HR'), (rp_man _ _ _ HR), E).
    split; [done|]. destruct (A !! m') as [k|] eqn:Ek.
    + by rewrite (contact_list_ok _ _ _ _ _ HR' E), (contact_list_ok _ _ _ _ _ HR Ek).
    + unfold contact_list. rewrite Em, (rp_man _ _ _ HR), Ek. done.
Qed.

(** C13.  A contact that persists keeps its identity: when every result point
    is the nearest one of some existing point, no point is created and each
    result point refreshes an existing one, which ages by one. *)
Theorem C13_persistent r env m result old : finite_dist G → preach G nz dflt r → contact_list r m = Ok old → legal_result nz result →
  (∀ j, j < length result → ∃ x p k, (x, (p, k)) ∈ old ∧ nearest G env p result = j) →
  ∃ s' new, process G nz dflt false env m result (PSt r [] []) = Ok s' ∧ contact_list (ps_reg s') m = Ok new ∧
    new.*1 `sublist_of` old.*1 ∧
    ∀ j q, result !! j = Some q → ∃ x p k, (x, (p, k)) ∈ old ∧ nearest G env p result = j ∧ (x, (q, S k)) ∈ new.
Proof.
  intros HF Hr Hold Hres Hall. destruct (preach_repr G nz dflt r HF Hr) as (A & HR & HS).
  destruct (A !! m) as [l|] eqn:El.
  2:{ unfold contact_list in Hold. rewrite (rp_man _ _ _ HR), El in Hold. done. }
  rewrite (contact_list_ok _ _ _ _ _ HR El) in Hold. injection Hold as <-.
  destruct (process_seq G nz dflt env m A _ r l result HF HR El (HS _ _ El) Hres) as (s' & l' & news & dels & Ha & Hp & HR' & Hlen).
  destruct (a_process_persistent G nz dflt env l result) as (l2 & dels2 & Ha2 & Hq); [exact (rp_nodup _ _ _ HR m l El)|apply Hres|done|].
  rewrite Ha in Ha2. injection Ha2 as -> -> ->.
  exists s', (del_ids dels2 l2). split_and!; [done| | |exact Hq].
  - eapply contact_list_ok; [exact HR'|]. by rewrite lookup_insert.
  - destruct (a_process_updated G nz dflt env (pr_fresh r) l result l2 [] dels2 HF) as (_ & <- & _).
    + exact (rp_nodup _ _ _ HR m l El).
    + intros x Hx. exact (rp_old _ _ _ HR m l x El Hx).
    + exact (HS _ _ El).
    + apply Hres.
    + exact Ha.
    + rewrite del_ids_filter. apply filter_ids_sublist.
Qed.

(** C13.  "Nearest": below the caching threshold in one of the two bodies'
    frames and not farther than any other; none only when all are beyond it. *)
Theorem C13_nearest leb (p : rpoint V X) result : total_order leb (g_lt G) →
  let near (v : Sc) (q : rpoint V X) := v = g_dist G (rp_a q) (rp_a p) ∨ v = g_dist G (rp_b q) (rp_b p) in
  (find_nearest G p result < length result ∧ ∃ q v, result !! find_nearest G p result = Some q ∧ near v q ∧
     g_lt G v (g_cache G) = true ∧ ∀ q' v', q' ∈ result → near v' q' → leb v v' = true) ∨
  (find_nearest G p result = length result ∧ ∀ q' v', q' ∈ result → near v' q' → leb (g_cache G) v' = true).
Proof. apply find_nearest_spec. Qed.

(** C14.  The slot for a new point: with a buffer of four and at most four used
    the call returns; append means the first free one, replace and similar a
    used one, and the count grows only on append. *)
Theorem C14_slot_safe (pts : list V) num p : finite_dist G → length pts = 4 → num ≤ 4 →
  ∃ t i n, insertion_point_index G pts num p = Ok (t, Some i, n) ∧
    match t with
    | INone => n = num
    | IAppend => i = num ∧ n = S num ∧ n ≤ 4
    | ISimilar | IReplace => i < num ∧ n = num
    end.
Proof.
  intros HF Hl Hn. destruct (insertion_safe G pts num p Hl Hn) as (t & i & n & H & Hs).
  - intros _ a b c _ _ _. left. apply HF.
  - exists t, i, n. split; [done|]. unfold slot_ok in Hs. by destruct t.
Qed.

(** C14.  Adding a point to a collision result never writes outside its four
    points: at most one point changes and it becomes the given one. *)
Theorem C14_maybe_add_point (r : cresult V X) p : finite_dist G → length (rs_pts r) = 4 → rs_num r ≤ 4 →
  ∃ r', maybe_add_point G r p = Ok r' ∧ length (rs_pts r') = 4 ∧ rs_num r ≤ rs_num r' ≤ 4 ∧
    (r' = r ∨ ∃ i, i < rs_num r' ∧ (i < rs_num r ∧ rs_num r' = rs_num r ∨ i = rs_num r ∧ rs_num r' = S (rs_num r)) ∧
       rs_pts r' = <[i := p]> (rs_pts r)).
Proof.
  intros HF Hl Hn. destruct r as [num pts]. simpl in *. unfold maybe_add_point. cbn [rs_pts rs_num].
  destruct (find_slot_safe G pts num p HF Hl Hn) as (t & i & n & -> & Hs). cbn [mbind res_bind]. unfold max_contacts in Hs.
  destruct (decide (t = INone)) as [->|Ht].
  - simpl in Hs. subst n. eexists. split_and!; try done. by left.
  - assert (Hi : i < n ∧ (i < num ∧ n = num ∨ i = num ∧ n = S num) ∧ n ≤ 4) by (destruct t; simpl in Hs; unfold max_contacts in *; try done; intuition lia).
    unfold store. rewrite decide_True by lia. eexists. split; [done|]. cbn [rs_pts rs_num]. rewrite insert_length.
    split_and!; [done|lia|lia|]. right. exists i. tauto.
Qed.

(** C14.  With four points, the one that goes is the one whose exchange gives
    the best score; nothing changes when no exchange improves the score. *)
Theorem C14_best_score leb p0 p1 p2 p3 p t i n : total_order leb (g_lt G) →
  insertion_point_index G [p0; p1; p2; p3] 4 p = Ok (t, Some i, n) →
  let scores := [g_score G p p1 p2 p3; g_score G p p0 p2 p3; g_score G p p0 p1 p3; g_score G p p0 p1 p2] in
  let cur := g_score G p0 p1 p2 p3 in
  if decide (t = INone) then ∀ s, s ∈ scores → leb s cur = true
  else ∃ b, scores !! i = Some b ∧ g_lt G cur b = true ∧ ∀ s, s ∈ scores → leb s b = true.
Proof. exact (insertion_best G leb p0 p1 p2 p3 p t i n). Qed.

(** C14.  With two points and a third on their line, the segment kept is a
    longest one. *)
Theorem C14_longest_segment leb p0 p1 q2 q3 p t i n : total_order leb (g_lt G) →
  g_lt G (g_eps G) (g_cross G p p0 p1) = false →
  insertion_point_index G [p0; p1; q2; q3] 2 p = Ok (t, Some i, n) →
  let d0 := g_dist G p p0 in let d1 := g_dist G p p1 in let dc := g_dist G p0 p1 in
  n = 2 ∧ (t = INone ∧ (leb d0 dc = true ∨ leb d0 d1 = true) ∧ (leb d1 dc = true ∨ leb d1 d0 = true) ∨
           t ≠ INone ∧ i = 1 ∧ leb dc d0 = true ∧ leb d1 d0 = true ∨
           t ≠ INone ∧ i = 0 ∧ leb dc d1 = true ∧ leb d0 d1 = true).
Proof. exact (insertion_segment G leb p0 p1 q2 q3 p t i n). Qed.

(** C45.  Whatever order the parallel ranges process the manifolds in, the
    parallel narrowphase ends with the same registry as the sequential loop. *)
Theorem C45_narrowphase_same detect order ms r : finite_dist G → preach G nz dflt r → NoDup ms → order ≡ₚ ms →
  (∀ m, m ∈ ms → is_Some (pr_man r !! m) ∧ legal_result nz (detect m).1) →
  ∃ r', seq_update G nz dflt detect r ms = Ok r' ∧ par_update G nz dflt detect r order ms = Ok r'.
Proof. exact (narrowphase_same G nz dflt detect order ms r). Qed.
End props.

(** ** Instance: the plane over the integers, with an infinite scalar *)
Definition zleb (a b : option Z) : bool :=
  match b with None => true | Some y => match a with Some x => Z.leb x y | None => false end end.
Definition zltb (a b : option Z) : bool := negb (zleb b a).
Lemma z_total : total_order zleb zltb.
Proof.
  constructor; [| |done].
  - intros [a|] [b|]; simpl; auto. rewrite !Z.leb_le. lia.
  - intros [a|] [b|] [c|]; simpl; try done. rewrite !Z.leb_le. lia.
Qed.
Definition vsub (a b : Z * Z) : Z * Z := (a.1 - b.1, a.2 - b.2)%Z.
Definition vdot (a b : Z * Z) : Z := (a.1 * b.1 + a.2 * b.2)%Z.
Definition vcross (a b : Z * Z) : Z := (a.1 * b.2 - a.2 * b.1)%Z.
Definition sq (a : Z) : Z := (a * a)%Z.
(** unit: one centimetre *)
Definition zgeo : geo (Z * Z) (option Z) := Geo _ _ zltb
  (λ a b, Some (vdot (vsub a b) (vsub a b))) (Some 1%Z) (Some 16%Z) (Some 0%Z) None (Some 0%Z) (Some 10000%Z)
  (λ n p q, Some (sq (vcross (vsub n p) (vsub n q))))
  (λ p0 p1 p2, negb (Z.eqb (vcross (vsub p0 p1) (vsub p1 p2)) 0))
  (λ n p0 p1 p2, let s a b := Z.sgn (vcross (vsub b a) (vsub n a)) in
     Z.leb 0 (s p0 p1) && Z.leb 0 (s p1 p2) && Z.leb 0 (s p2 p0) || Z.leb (s p0 p1) 0 && Z.leb (s p1 p2) 0 && Z.leb (s p2 p0) 0)
  (λ a b c, Some (vdot (vsub b a) (vsub c a)))
  (λ p0 p1 p2 p3, Some (sq (vcross (vsub p0 p1) (vsub p0 p2)) + sq (vcross (vsub p0 p2) (vsub p0 p3)) +
     sq (vcross (vsub p0 p3) (vsub p0 p1)) + sq (vcross (vsub p1 p2) (vsub p2 p3)))%Z).
Lemma zgeo_finite : finite_dist zgeo.
Proof. intros a b. reflexivity. Qed.

(** C14.  Without finite distances the index is not safe: three points with NaN
    coordinates make a fourth be written out of bounds. *)
Theorem C14_nan_refuted : ∃ (G : geo Z Z) (r : cresult Z unit) p,
  length (rs_pts r) = 4 ∧ rs_num r = 3 ∧ maybe_add_point G r p = UB.
Proof.
  exists (Geo _ _ (λ _ _, false) (λ _ _, 0%Z) 0%Z 0%Z 0%Z 0%Z 0%Z 0%Z (λ _ _ _, 0%Z) (λ _ _ _, false) (λ _ _ _ _, false) (λ _ _ _, 0%Z) (λ _ _ _ _, 0%Z)).
  exists (CRes 3 (replicate 4 (RP 0%Z 0%Z tt))), (RP 0%Z 0%Z tt). split_and!; vm_compute; reflexivity.
Qed.
(** C14.  Of three points on a line the one replaced need not be the middle
    one: with 0, 20, 10 it is the end point 20. *)
Theorem C14_collinear_refuted : ∃ pts p i, pts !! 0 = Some (0, 0)%Z ∧ pts !! 1 = Some (20, 0)%Z ∧ pts !! 2 = Some (10, 0)%Z ∧
  insertion_point_index zgeo pts 3 p = Ok (IReplace, Some i, 3) ∧ i = 1.
Proof. exists [(0, 0); (20, 0); (10, 0); (0, 0)]%Z, (5, 9)%Z, 1. split_and!; vm_compute; reflexivity. Qed.

(** ** Concrete cases *)
Definition zpt (x y : Z) : rpoint (Z * Z) nat := RP (x, y) (x, y) 0.
Definition zenv : penv (Z * Z) (option Z) nat := PEnv None None (λ p, bool_decide (rp_rest p = 9)).
Definition run1 (r : res (preg (Z * Z) nat)) (m : nat) (result : list (rpoint (Z * Z) nat)) : res (preg (Z * Z) nat) :=
  r ← r; s ← process zgeo (λ _, true) (zpt 0 0) false zenv m result (PSt r [] []); Ok (ps_reg s).
Definition r0 : preg (Z * Z) nat := make_manifold (make_manifold (PReg ∅ ∅ 0)).

Definition see (e : nat * (rpoint (Z * Z) nat * nat)) : nat * (Z * Z) * nat := (e.1, rp_a e.2.1, e.2.2).
Lemma run1_reach (r r' : preg (Z * Z) nat) m result : preach zgeo (λ _, true) (zpt 0 0) r → length result ≤ 4 →
  run1 (Ok r) m result = Ok r' → preach zgeo (λ _, true) (zpt 0 0) r'.
Proof.
  intros Hr Hl H. unfold run1 in H. cbn [mbind res_bind] in H. apply bind_ok in H as (s & Hs & [= <-]).
  eapply pr_update; [exact Hr| |exact Hs]. split; [done|]. by apply Forall_true.
Qed.
(** Four corners of a square, then three of them seen again slightly moved and
    one far point: the far one takes the place of an old corner. *)
Example C13_case : ∃ r1 r2 l1 l2,
  run1 (Ok r0) 0 [zpt 0 0; zpt 20 0; zpt 20 20; zpt 0 20] = Ok r1 ∧ contact_list r1 0 = Ok l1 ∧ length l1 = 4 ∧
  preach zgeo (λ _, true) (zpt 0 0) r1 ∧
  run1 (Ok r1) 0 [zpt 1 0; zpt 21 0; zpt 20 21; zpt (-20) 40] = Ok r2 ∧ contact_list r2 0 = Ok l2 ∧
  see <$> l2 = [(6, (-20, 40)%Z, 0); (4, (20, 21)%Z, 1); (3, (21, 0)%Z, 1); (2, (1, 0)%Z, 1)].
Proof.
  eexists _, _, _, _. split_and!; [vm_compute; reflexivity|vm_compute; reflexivity|reflexivity| |vm_compute; reflexivity|vm_compute; reflexivity|vm_compute; reflexivity].
  eapply (run1_reach r0 _ 0 [zpt 0 0; zpt 20 0; zpt 20 20; zpt 0 20]); [|simpl; lia|vm_compute; reflexivity]. do 2 constructor. apply pr_init.
Qed.
(** The same points seen again, moved: identities are kept. *)
Example C13_persistent_case :
  ∃ r l, run1 (run1 (Ok r0) 0 [zpt 0 0; zpt 20 0]) 0 [zpt 21 0; zpt 1 0] = Ok r ∧ contact_list r 0 = Ok l ∧
    see <$> l = [(3, (21, 0)%Z, 1); (2, (1, 0)%Z, 1)].
Proof. eexists _, _. split_and!; vm_compute; reflexivity. Qed.
Example C14_case : maybe_add_point zgeo (CRes 2 [zpt 0 0; zpt 10 0; zpt 0 0; zpt 0 0]) (zpt 5 8) =
  Ok (CRes 3 [zpt 0 0; zpt 10 0; zpt 5 8; zpt 0 0]).
Proof. vm_compute. reflexivity. Qed.
Example C14_best_case : insertion_point_index zgeo [(0, 0); (10, 0); (10, 10); (0, 10)]%Z 4 (40, 40)%Z = Ok (IReplace, Some 2, 4).
Proof. vm_compute. reflexivity. Qed.
Example C14_segment_case : insertion_point_index zgeo [(0, 0); (10, 0); (0, 0); (0, 0)]%Z 2 (30, 0)%Z = Ok (IReplace, Some 1, 2).
Proof. vm_compute. reflexivity. Qed.
(** Two manifolds, processed in the opposite order by the parallel ranges. *)
Example C45_case :
  let detect m := (if decide (m = 0) then [zpt 0 0; zpt 20 0] else [zpt 5 5], zenv) in
  par_update zgeo (λ _, true) (zpt 0 0) detect r0 [1; 0] [0; 1] = seq_update zgeo (λ _, true) (zpt 0 0) detect r0 [0; 1] ∧
  is_ok (seq_update zgeo (λ _, true) (zpt 0 0) detect r0 [0; 1]) = true.
Proof. vm_compute. split; reflexivity. Qed.

Print Assumptions C13_well_formed.
Print Assumptions C13_progress.
Print Assumptions C13_update.
Print Assumptions C13_persistent.
Print Assumptions C13_nearest.
Print Assumptions C14_slot_safe.
Print Assumptions C14_maybe_add_point.
Print Assumptions C14_best_score.
Print Assumptions C14_longest_segment.
Print Assumptions C14_nan_refuted.
Print Assumptions C14_collinear_refuted.
Print Assumptions C45_narrowphase_same.
