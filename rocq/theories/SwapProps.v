(** Property theorems: exchanging the two bodies (C15). *)
From Verif Require Import Outcome BoxModel PointModel PointSpec PointProofs PointReach PointProps SwapModel SwapProofs.

Section props.
Context {V N Sc F : Type} (neg : N → N).
Notation point := (rpoint V (rest N Sc F)).

(** Exchanging the bodies of a collision result twice gives the original. *)
Theorem C15_swap_involution (r : cresult V (rest N Sc F)) : (∀ x, neg (neg x) = x) → swap_result neg (swap_result neg r) = r.
Proof. intros Hn. by apply swap_result_invol. Qed.

(** Exchanging once: same number of points; each used point has its normal
    negated, and pivots, features and attachment exchanged; distance and the
    points beyond the count are untouched. *)
Theorem C15_swap_observed (r : cresult V (rest N Sc F)) i p : rs_pts r !! i = Some p →
  rs_num (swap_result neg r) = rs_num r ∧ length (rs_pts (swap_result neg r)) = length (rs_pts r) ∧
  ∃ q, rs_pts (swap_result neg r) !! i = Some q ∧
    (rs_num r ≤ i → q = p) ∧
    (i < rs_num r →
       rp_a q = rp_b p ∧ rp_b q = rp_a p ∧ x_normal (rp_rest q) = neg (x_normal (rp_rest p)) ∧
       x_dist (rp_rest q) = x_dist (rp_rest p) ∧ x_fa (rp_rest q) = x_fb (rp_rest p) ∧ x_fb (rp_rest q) = x_fa (rp_rest p) ∧
       (x_att (rp_rest q) = AttA ↔ x_att (rp_rest p) = AttB) ∧ (x_att (rp_rest q) = AttB ↔ x_att (rp_rest p) = AttA) ∧
       (x_att (rp_rest q) = AttNone ↔ x_att (rp_rest p) = AttNone)).
Proof.
  intros Hp. unfold swap_result. cbn [rs_num rs_pts]. rewrite imap_length, list_lookup_imap, Hp. split_and!; [done|done|].
  eexists. split; [done|]. split.
  - intros Hi. rewrite decide_False by lia. done.
  - intros Hi. rewrite decide_True by done. destruct p as [a b [n d [] fa fb l]]; simpl; split_and!; done.
Qed.

(** Exchanging the bodies of a manifold: every contact point of it is
    exchanged, in place and keeping its lifetime; its constraint takes the new
    bodies; nothing else changes.  Twice gives the original. *)
Theorem C15_swap_manifold (G : geo V Sc) nz (dflt : point) (s : mreg) m (l : list (nat * (point * nat))) a b :
  (∀ x, neg (neg x) = x) → finite_dist G →
  preach G nz dflt (mr_reg s) → contact_list (mr_reg s) m = Ok l → mr_body s !! m = Some (a, b) →
  (∀ x, x ∈ l.*1 → mr_con s !! x = Some (a, b)) →
  ∃ s', swap_manifold neg s m = Ok s' ∧ mr_body s' = <[m := (b, a)]> (mr_body s) ∧
    contact_list (mr_reg s') m = Ok ((λ e, (e.1, (swap_point neg e.2.1, e.2.2))) <$> l) ∧
    (∀ x, x ∈ l.*1 → mr_con s' !! x = Some (b, a)) ∧ (∀ x, x ∉ l.*1 → mr_con s' !! x = mr_con s !! x) ∧
    (∀ m', m' ≠ m → contact_list (mr_reg s') m' = contact_list (mr_reg s) m') ∧
    swap_manifold neg s' m = Ok s.
Proof.
  intros Hneg HF Hr Hl Hb Hc. destruct (preach_repr G nz dflt _ HF Hr) as (A & HR & HS).
  destruct (A !! m) as [l0|] eqn:El.
  2:{ unfold contact_list in Hl. rewrite (rp_man _ _ _ HR), El in Hl. done. }
  rewrite (contact_list_ok _ _ _ _ _ HR El) in Hl. injection Hl as ->.
  destruct (swap_manifold_spec neg A _ m l a b s HR El Hb) as (s' & Hs & HR' & Hb' & Hc').
  destruct (swap_manifold_spec neg _ _ m (swap_entry neg <$> l) b a s' HR' ltac:(apply lookup_insert)) as (s2 & Hs2 & HR2 & Hb2 & Hc2).
  { by rewrite Hb', lookup_insert. }
  exists s'. split_and!; [done|done| | | | |].
  - eapply contact_list_ok; [exact HR'|]. by rewrite lookup_insert.
  - intros x Hx. by rewrite Hc', decide_True, (Hc x Hx) by done.
  - intros x Hx. by rewrite Hc', decide_False by done.
  - intros m' Hm'. destruct (A !! m') as [k|] eqn:Ek.
    + rewrite (contact_list_ok _ _ _ _ _ HR Ek). eapply contact_list_ok; [exact HR'|]. by rewrite lookup_insert_ne.
    + unfold contact_list. rewrite (rp_man _ _ _ HR), (rp_man _ _ _ HR'), lookup_insert_ne, Ek by done. done.
  - rewrite Hs2. f_equal. destruct s as [r0 b0 c0], s2 as [r2 b2 c2]. simpl in *. f_equal.
    + rewrite insert_insert in HR2. assert (E : swap_entry neg <$> (swap_entry neg <$> l) = l).
      { rewrite <- list_fmap_compose. rewrite <- (list_fmap_id l) at 2. apply list_fmap_ext. intros i [x [p k]] _. simpl.
        unfold swap_entry. simpl. by rewrite swap_point_invol. }
      rewrite E, insert_id in HR2 by done. by eapply repr_unique.
    + rewrite Hb2, Hb', insert_insert. by apply insert_id.
    + apply map_eq. intros x. rewrite Hc2, swap_entry_ids, Hc'. destruct (decide (x ∈ l.*1)) as [Hx|Hx]; [|done]. by rewrite (Hc x Hx).
Qed.

(** Which result point an existing one is matched with does not depend on the
    order of the bodies. *)
Theorem C15_matching leb (G : geo V Sc) (p : point) result : total_order leb (g_lt G) →
  find_nearest G (swap_point neg p) (swap_point neg <$> result) = find_nearest G p result.
Proof. apply nearest_swap. Qed.
End props.

(** Flipping an imported contact point is not an involution and does not agree
    with the exchange: a point attached to neither body becomes attached to A. *)
Theorem C15_flip_attachment_refuted :
  ∃ p : rpoint Z (rest Z Z nat), flip_point Z.opp (flip_point Z.opp p) ≠ p ∧ flip_point Z.opp p ≠ swap_point Z.opp p ∧
    x_att (rp_rest p) = AttNone ∧ x_att (rp_rest (flip_point Z.opp p)) = AttA.
Proof. exists (RP 1 2 (Rest 3 0 AttNone None None 3))%Z. split_and!; vm_compute; done. Qed.
(** It agrees when the point is attached. *)
Theorem C15_flip_attached {V N Sc F} (neg : N → N) (p : rpoint V (rest N Sc F)) :
  x_att (rp_rest p) ≠ AttNone → flip_point neg p = swap_point neg p.
Proof. intros H. destruct p as [a b [n d [] fa fb l]]; done. Qed.
(** With a rolling body the matching does depend on the order: the result's
    first pivot is compared for both bodies. *)
Theorem C15_rolling_refuted :
  ∃ (G : geo Z Z) (d : Z → Z → Z) (p q : rpoint Z (rest Z Z nat)),
    nearest G (PEnv None (Some d) (λ _, false)) p [q] ≠
    nearest G (PEnv (Some d) None (λ _, false)) (swap_point Z.opp p) [swap_point Z.opp q].
Proof.
  exists (Geo _ _ Z.ltb (λ a b, Z.abs (a - b)) 1 2 0 1000 0 1 (λ _ _ _, 0) (λ _ _ _, true) (λ _ _ _ _, false) (λ _ _ _, 0) (λ _ _ _ _, 0))%Z.
  exists (λ a b, Z.abs (a - b - 50))%Z, (RP 0 150 (Rest 1 0 AttNone None None 1))%Z, (RP 40 100 (Rest 1 0 AttNone None None 1))%Z.
  vm_compute. done.
Qed.
(** Exchanging the bodies of a manifold leaves the stored local normal alone:
    with unrotated bodies it no longer equals the normal. *)
Theorem C15_local_normal_refuted :
  ∃ p : rpoint Z (rest Z Z nat), x_att (rp_rest p) = AttB ∧ x_local (rp_rest p) = x_normal (rp_rest p) ∧
    let q := swap_point Z.opp p in x_att (rp_rest q) = AttA ∧ x_local (rp_rest q) ≠ x_normal (rp_rest q).
Proof. exists (RP 1 2 (Rest 3 0 AttB None None 3))%Z. vm_compute. done. Qed.

(** ** Concrete cases *)
Example C15_case :
  swap_result Z.opp (CRes 1 [RP 1 2 (Rest 3 0 AttB (Some 5%nat) None 0); RP 7 8 (Rest 1 0 AttA None None 0)]%Z) =
  CRes 1 [RP 2 1 (Rest (-3) 0 AttA None (Some 5%nat) 0); RP 7 8 (Rest 1 0 AttA None None 0)]%Z.
Proof. vm_compute. reflexivity. Qed.
Notation zrest := (rest Z (option Z) nat).
Example C15_manifold_case :
  let p : rpoint (Z * Z) zrest := (RP (1, 0) (2, 5) (Rest 3 None AttB None (Some 4%nat) 3))%Z in
  let q : rpoint (Z * Z) zrest := (RP (2, 5) (1, 0) (Rest (-3) None AttA (Some 4%nat) None 3))%Z in
  ∃ r s', preach zgeo (λ _, true) p r ∧ contact_list r 0 = Ok [(1, (p, 0))] ∧
    swap_manifold Z.opp (MReg r {[ 0 := (20, 30) ]} {[ 1 := (20, 30) ]}) 0 = Ok s' ∧
    contact_list (mr_reg s') 0 = Ok [(1, (q, 0))] ∧ mr_body s' !! 0 = Some (30, 20) ∧ mr_con s' !! 1 = Some (30, 20).
Proof.
  intros p q. destruct (process zgeo (λ _, true) p false (PEnv None None (λ _, false)) 0 [p] (PSt (make_manifold (PReg ∅ ∅ 0)) [] [])) as [s| | |] eqn:E;
    [|vm_compute in E; discriminate..].
  exists (ps_reg s). assert (Hr : preach zgeo (λ _, true) p (ps_reg s)).
  { eapply (pr_update _ _ _ (make_manifold (PReg ∅ ∅ 0)) _ 0 [p]); [constructor; apply pr_init|split; [simpl; lia|by apply Forall_true]|exact E]. }
  vm_compute in E. injection E as <-. eexists. split; [exact Hr|]. split_and!; vm_compute; reflexivity.
Qed.

Print Assumptions C15_swap_involution.
Print Assumptions C15_swap_observed.
Print Assumptions C15_swap_manifold.
Print Assumptions C15_matching.
Print Assumptions C15_flip_attachment_refuted.
Print Assumptions C15_flip_attached.
Print Assumptions C15_rolling_refuted.
Print Assumptions C15_local_normal_refuted.
