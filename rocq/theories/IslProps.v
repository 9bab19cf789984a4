(** Islands: the properties of C37 and C38. *)
From Coq Require Import ZArith.
From Verif Require Import Outcome FreeListModel FreeListProofs GraphModel GraphSpec GraphProofs GraphHist GraphWalk GraphMain
  IslModel IslSpec IslBase IslInv IslData IslRel IslReach IslInit IslSplit IslOne IslUpd IslOps IslMake IslHist.

(** ** C37: islands are the connected parts *)

(** Legal calls succeed, apart from destroying a body which is not procedural. *)
Theorem island_calls_total tts t0 f log s w o :
  ihist tts t0 f log s w → ilegal s o → (∀ x, o = DelNode x → procedural s x) →
  ∃ w' r, istep tts w o = Ok (w', r) ∧
    match o with NewNode _ _ | NewEdge _ _ => sg_nodes s !! r = None ∧ sg_edges s !! r = None | _ => True end.
Proof.
  intros H Hl Hp. apply hist_hinv in H. pose proof (hi_core _ _ _ _ H) as C. destruct (hi_rel _ _ _ _ H) as [m R].
  destruct (core_fresh s w C) as (F1 & F2 & _).
  destruct o as [p ns|a b|x|k|fs|t]; cbn [istep].
  - destruct (new_node_ok s m w p ns C R) as (w1 & H1 & _). eauto 10.
  - destruct Hl as (Ha & Hb & Hab). destruct (new_edge_ok s m w a b C R Ha Hb Hab) as (w1 & H1 & _). eauto 10.
  - destruct (del_node_ok s m w x C R Hl) as [HD _]. destruct (HD (Hp x eq_refl)) as [w1 ->]. cbn. eauto.
  - destruct (del_edge_ok s m w k C R Hl) as (w1 & -> & _). cbn. eauto.
  - eauto.
  - destruct (update_ok tts s m w t) as (w1 & -> & _); [by apply core_inv|apply C|]. cbn. eauto.
Qed.

(** At all times, bodies and edges name the island which lists them, and an
    island lists the ends of its edges. *)
Theorem island_members tts t0 f log s w :
  ihist tts t0 f log s w →
  (∀ x h, procedural s x → (in_island w x h ↔ member w h x)) ∧
  (∀ k h, is_edge s k → (in_island w k h ↔ emember w h k)) ∧
  (∀ h x, member w h x → is_Some (sg_nodes s !! x)) ∧
  (∀ h k, emember w h k → is_edge s k) ∧
  (∀ h k x, emember w h k → ends s k x → member w h x).
Proof.
  intros H. apply hist_hinv in H. pose proof (co_part _ _ (hi_core _ _ _ _ H)) as P. split_and!; try apply P.
  intros h k x Hk Hx. assert (is_edge s k) by (by eapply ends_edge). apply (pt_edge _ _ _ _ P) in Hk; [|done]. by eapply (pt_ends _ _ _ _ P).
Qed.

(** After an update connected bodies share an island, and every edge of a
    procedural body is in the island of that body. *)
Theorem island_connected tts t0 f log s w t w' r :
  ihist tts t0 f log s w → istep tts w (Update t) = Ok (w', r) →
  (∀ x y, pconn s x y → together w' x y) ∧
  (∀ k x, ends s k x → procedural s x → together w' k x).
Proof.
  intros H Hst. apply hist_hinv in H. pose proof (hi_core _ _ _ _ H) as C. destruct (hi_rel _ _ _ _ H) as [m R].
  destruct (update_ok tts s m w t) as (w1 & H1 & U); [by apply core_inv|apply C|]. cbn [istep] in Hst. rewrite H1 in Hst. injection Hst as <- <-.
  pose proof (up_inv _ _ _ _ _ _ U) as IV. pose proof (up_complete _ _ _ _ _ _ U) as CO. pose proof (iv_part _ _ _ IV) as P.
  assert (Hhas : ∀ x, procedural s x → ∃ h, in_island w1 x h).
  { intros x Hx. assert (is_Some (w_res w1 !! x)) as [[h|] E] by (apply (pt_res _ _ _ _ P); by left); [by exists h|].
    exfalso. apply (CO x Hx). by left. }
  split.
  - intros x y Hxy. destruct (Hhas x) as [h Hh]; [by eapply pconn_left|]. exists h. split; [done|].
    apply (pt_node _ _ _ _ P); [by eapply pconn_right|]. eapply (pconn_member s m w1 h x); try done.
    apply (pt_node _ _ _ _ P); [by eapply pconn_left|done].
  - intros k x Hk Hx. assert (is_edge s k) by (by eapply ends_edge).
    assert (is_Some (w_res w1 !! k)) as [[h|] E] by (apply (pt_res _ _ _ _ P); by right).
    + exists h. split; [done|]. apply (pt_node _ _ _ _ P); [done|]. by eapply (pt_ends _ _ _ _ P).
    + exfalso. apply (CO x Hx). right. by exists k.
Qed.

(** Bodies of one island are connected, when no update so far found both new
    edges and destroyed things. *)
Theorem island_exact tts t0 f log s w t w' r :
  ihist tts t0 f log s w → istep tts w (Update t) = Ok (w', r) →
  fr_mixed (fnext f (Update t)) = false →
  ∀ x y, procedural s x → procedural s y → (together w' x y ↔ pconn s x y).
Proof.
  intros H Hst Hf x y Hx Hy. split; [|by eapply island_connected].
  assert (H' : ihist tts t0 (fnext f (Update t)) (lnext log w w' (Update t)) (snext s (Update t) r) w') by (by eapply ih_step).
  apply hist_hinv in H'. pose proof (co_part _ _ (hi_core _ _ _ _ H')) as P. intros (h & Hxh & Hyh).
  apply (pt_node _ _ _ _ P) in Hxh, Hyh; [|done..].
  assert (HS : settled s w' h).
  { apply (hi_settled _ _ _ _ H' Hf). rewrite (hi_del _ _ _ _ H' eq_refl). apply not_elem_of_nil. }
  by eapply oconn_pconn, HS.
Qed.

(** ** C38: sleep *)

(** An island and its residents sleep together; nothing else sleeps. *)
Theorem island_sleeps_whole tts t0 f log s w :
  ihist tts t0 f log s w →
  (∀ x h, in_island w x h → (x ∈ w_asleep w ↔ h ∈ w_asleep w)) ∧
  (∀ x, x ∈ w_asleep w → is_island w x ∨ ∃ h, in_island w x h).
Proof.
  intros H. apply hist_hinv in H. pose proof (hi_core _ _ _ _ H) as C. pose proof (co_slp _ _ C) as L. split.
  - intros x h Hx. split; [|by apply (sl_down _ L)]. intros Hs. destruct (sl_up _ L x Hs) as [Hi|(h' & Hx' & Hh)].
    + by destruct (core_not_island s w x _ C Hx) as [? _].
    + unfold in_island in *. congruence.
  - intros x Hs. destruct (sl_up _ L x Hs) as [?|(h & ? & _)]; eauto.
Qed.
Theorem connected_sleep_together tts t0 f log s w t w' r :
  ihist tts t0 f log s w → istep tts w (Update t) = Ok (w', r) →
  ∀ x y, pconn s x y → (x ∈ w_asleep w' ↔ y ∈ w_asleep w').
Proof.
  intros H Hst x y Hxy.
  assert (H' : ihist tts t0 (fnext f (Update t)) (lnext log w w' (Update t)) (snext s (Update t) r) w') by (by eapply ih_step).
  destruct (island_connected _ _ _ _ _ _ _ _ _ H Hst) as [Hc _]. destruct (Hc x y Hxy) as (h & Hx & Hy).
  destruct (island_sleeps_whole _ _ _ _ _ _ H') as [Hs _]. by rewrite (Hs x h Hx), (Hs y h Hy).
Qed.

(** Only an update puts an island to sleep, and only one which every update of
    a span longer than the limit, this one included, saw calm. *)
Theorem sleep_only_in_update tts t0 f log s w o w' r :
  ihist tts t0 f log s w → ilegal s o → (∀ t, o ≠ Update t) → istep tts w o = Ok (w', r) →
  ∀ h, is_island w' h → h ∈ w_asleep w' → h ∈ w_asleep w.
Proof. intros H Hl Ho Hst h. by apply (step_kept _ _ _ _ _ _ _ _ _ H Hl Ho Hst). Qed.
Theorem sleep_only_when_calm tts t0 f log s w t w' r :
  ihist tts t0 f log s w → istep tts w (Update t) = Ok (w', r) →
  ∀ h, is_island w' h → h ∈ w_asleep w' → h ∉ w_asleep w →
  ∃ ts, calm_since (lnext log w w' (Update t)) h ts ∧ (tts < w_last w - ts)%Z.
Proof.
  intros H Hst h [il Hh] Hs Ha. apply hist_hinv in H. pose proof (hi_core _ _ _ _ H) as C. destruct (hi_rel _ _ _ _ H) as [m R].
  destruct (update_ok tts s m w t) as (w1 & H1 & U); [by apply core_inv|apply C|]. cbn [istep] in Hst. rewrite H1 in Hst. injection Hst as <- <-.
  by destruct (upd_falls tts f log s m w w1 t H U h il Hh Hs Ha) as [_ ?].
Qed.

(** A body with a new edge, and the bodies of an island which lost something,
    are awake after the update, unless they now belong to an island which was
    awake before and which this update puts to sleep. *)
Definition fell_asleep (tts : Z) (log : list entry) (w w' : world) (x : nat) : Prop :=
  ∃ h ts, in_island w' x h ∧ is_island w h ∧ h ∉ w_asleep w ∧ calm_since log h ts ∧ (tts < w_last w - ts)%Z.
Lemma roused_falls tts t0 f log s w t w' r x :
  ihist tts t0 f log s w → istep tts w (Update t) = Ok (w', r) → procedural s x →
  (needs s w x ∨ ∃ h, in_island w x h ∧ h ∈ w_wake w) →
  x ∈ w_asleep w' → fell_asleep tts (lnext log w w' (Update t)) w w' x.
Proof.
  intros H Hst Hx Hor Hs.
  assert (H' : ihist tts t0 (fnext f (Update t)) (lnext log w w' (Update t)) (snext s (Update t) r) w') by (by eapply ih_step).
  destruct (island_connected _ _ _ _ _ _ _ _ _ H Hst) as [Hc _]. destruct (Hc x x) as (h & Hxh & _); [by constructor|].
  destruct (island_sleeps_whole _ _ _ _ _ _ H') as [Hw _]. apply (Hw x h Hxh) in Hs.
  apply hist_hinv in H, H'. pose proof (hi_core _ _ _ _ H) as C. destruct (hi_rel _ _ _ _ H) as [m R].
  destruct (update_ok tts s m w t) as (w1 & H1 & U); [by apply core_inv|apply C|]. cbn [istep] in Hst. rewrite H1 in Hst. injection Hst as <- <-.
  assert (is_island w1 h) as [il Hil] by (by eapply core_in_island, Hxh; apply H').
  assert (Hx2 : ∃ w2 il2, w_isl w2 !! h = Some il2 ∧ falls tts w2 il2 = true ∧
    (il_sleep il2 = None ∨ ∃ il0, w_isl w !! h = Some il0 ∧ il_sleep il2 = il_sleep il0)).
  { destruct (up_sleep _ _ _ _ _ _ U) as (w2 & Hst & _ & _ & _ & _ & _ & HI & HA & Hn & Hd & Hwk).
    pose proof (HI h) as E. rewrite Hil in E. destruct (w_isl w2 !! h) as [il2|] eqn:E2; [|done]. exists w2, il2. split_and!; [done| |by apply Hst].
    apply (HA h il2 E2) in Hs as [Hs|?]; [|done]. exfalso. apply (Hd x h Hxh) in Hs.
    destruct Hor as [?|(h' & ? & ?)]; [by apply (Hn x)|by apply (Hwk x h')]. }
  destruct Hx2 as (w2 & il2 & E2 & Hf & Hor2). unfold falls in Hf. apply andb_true_iff in Hf as [_ Hf].
  destruct (il_sleep il2) as [ts|] eqn:Et; [|done]. destruct Hor2 as [?|(il0 & E0 & Es)]; [done|].
  assert (Ha : h ∉ w_asleep w) by (by apply (hi_stamp _ _ _ _ H h il0 ts)).
  destruct (upd_falls tts f log s m w w1 t H U h il Hil Hs Ha) as [Hi (t1 & Hcs & Hlt)]. by exists h, t1.
Qed.

Theorem new_edge_wakes tts t0 f log s w a b w1 k s2 w2 t w3 r :
  ihist tts t0 f log s w → ilegal s (NewEdge a b) → istep tts w (NewEdge a b) = Ok (w1, k) →
  quiet tts (snext s (NewEdge a b) k) w1 s2 w2 → istep tts w2 (Update t) = Ok (w3, r) →
  ∀ x, ends s2 k x → procedural s2 x → x ∈ w_asleep w3 → fell_asleep tts (lnext log w2 w3 (Update t)) w2 w3 x.
Proof.
  intros H Hl Hst HQ Hu x Hk Hx Hs.
  assert (H1 : ihist tts t0 (fnext f (NewEdge a b)) log (snext s (NewEdge a b) k) w1) by exact (ih_step _ _ _ _ _ _ _ _ _ H Hl Hst).
  destruct (quiet_hist _ _ _ _ _ _ _ _ H1 HQ) as [f2 H2]. eapply roused_falls; try done. left. right. exists k. split; [done|].
  pose proof (hist_hinv _ _ _ _ _ _ H2) as HI2. pose proof (co_part _ _ (hi_core _ _ _ _ HI2)) as P.
  assert (is_Some (w_res w2 !! k)) as [[h|] E]; [|exfalso|done].
  { apply (pt_res _ _ _ _ P). right. by eapply ends_edge. }
  assert (Hk1 : in_island w1 k h) by (by eapply quiet_island).
  cbn [istep] in Hst. unfold new_edge, create in Hst. cbv beta iota zeta in Hst.
  destruct (opt_res (w_node _ !! a)) as [i| | |]; try done. cbn [mbind res_bind] in Hst.
  destruct (opt_res (w_node _ !! b)) as [j| | |]; try done. cbn [mbind res_bind] in Hst.
  destruct (insert_edge _ _ i j) as [[g e]| | |]; try done. cbn [mbind res_bind] in Hst. injection Hst as <- <-.
  unfold in_island in Hk1. cbn in Hk1. by rewrite lookup_insert in Hk1.
Qed.

Theorem destruction_wakes tts t0 f log s w o w1 r1 s2 w2 t w3 r x h :
  ihist tts t0 f log s w → ilegal s o → o = DelEdge x ∨ o = DelNode x → istep tts w o = Ok (w1, r1) →
  (in_island w x h ∨ ∃ k, ends s k x ∧ in_island w k h) →
  quiet tts (snext s o r1) w1 s2 w2 → istep tts w2 (Update t) = Ok (w3, r) →
  ∀ y, in_island w2 y h → procedural s2 y → y ∈ w_asleep w3 → fell_asleep tts (lnext log w2 w3 (Update t)) w2 w3 y.
Proof.
  intros H Hl Ho Hst Hx HQ Hu y Hy Hp Hs.
  assert (Hnu : ∀ t, o ≠ Update t) by (destruct Ho as [-> | ->]; done).
  assert (H1 : ihist tts t0 (fnext f o) log (snext s o r1) w1).
  { assert (E : lnext log w w1 o = log) by (by destruct Ho as [-> | ->]). rewrite <- E. by eapply ih_step. }
  destruct (quiet_hist _ _ _ _ _ _ _ _ H1 HQ) as [f2 H2]. eapply roused_falls; try done. right. exists h. split; [done|].
  eapply quiet_wake; [exact H1|exact HQ|]. destruct (step_kept _ _ _ _ _ _ _ _ _ H Hl Hnu Hst) as [_ HW].
  pose proof (hist_hinv _ _ _ _ _ _ H1) as HI1. pose proof (co_part _ _ (hi_core _ _ _ _ HI1)) as P1.
  pose proof (hist_hinv _ _ _ _ _ _ H) as HI. pose proof (core_sep _ _ (hi_core _ _ _ _ HI)) as SP.
  assert (Hgone : ∀ z, (¬ procedural (snext s o r1) z) → ¬ is_edge (snext s o r1) z → w_res w1 !! z = None).
  { intros z Hz1 Hz2. apply eq_None_not_Some. rewrite (pt_res _ _ _ _ P1). tauto. }
  destruct Hx as [Hx|(k & Hk & Hkh)].
  - apply (HW ltac:(destruct Ho; eauto) x h Hx). apply Hgone.
    + destruct Ho as [-> | ->]; cbn.
      * intros Hp'%procedural_node. apply (SP x Hp'). apply Hl.
      * unfold procedural. cbn. by rewrite lookup_delete.
    + destruct Ho as [-> | ->]; cbn.
      * intros [v Hv]. cbn in Hv. by rewrite lookup_delete in Hv.
      * intros [v Hv]. cbn in Hv. apply map_filter_lookup_Some in Hv as [Hv _]. apply (SP x); [done|by eexists].
  - apply (HW ltac:(destruct Ho; eauto) k h Hkh). apply Hgone.
    + intros Hp'. assert (is_Some (sg_nodes s !! k)) as Hn.
      { destruct Ho as [-> | ->]; cbn in Hp'; [by eexists|]. unfold procedural in Hp'. cbn in Hp'. apply lookup_delete_Some in Hp' as [_ ?]. by eexists. }
      apply (SP k Hn). by eapply ends_edge.
    + destruct Ho as [-> | ->]; cbn.
      * exfalso. apply (SP x); [|done]. by eapply (co_wf _ _ (hi_core _ _ _ _ HI)).
      * intros [v Hv]. cbn in Hv. apply map_filter_lookup_Some in Hv as [Hv [Hv1 Hv2]]. destruct Hk as [z [Hz|Hz]]; rewrite Hz in Hv; injection Hv as <-; done.
Qed.

(** ** Runs, for the examples *)
Global Instance ilegal_dec s o : Decision (ilegal s o).
Proof. destruct o; unfold ilegal, is_edge; apply _. Defined.
Fixpoint play (tts : Z) (st : frame * list entry * sgraph * world) (os : list iop) : option (frame * list entry * sgraph * world) :=
  match os with
  | [] => Some st
  | o :: os =>
    let '(f, log, s, w) := st in
    if decide (ilegal s o) then
      match istep tts w o with
      | Ok (w', r) => play tts (fnext f o, lnext log w w' o, snext s o r, w') os
      | _ => None
      end
    else None
  end.
Lemma play_hist tts t0 os : ∀ f log s w f' log' s' w', ihist tts t0 f log s w →
  play tts (f, log, s, w) os = Some (f', log', s', w') → ihist tts t0 f' log' s' w'.
Proof.
  induction os as [|o os IH]; cbn [play]; intros f log s w f' log' s' w' H Hp; [by injection Hp as <- <- <- <-|].
  case_decide as Hl; [|done]. destruct (istep tts w o) as [[w1 r]| | |] eqn:E; try done.
  eapply IH; [|exact Hp]. by eapply ih_step.
Qed.
Definition start (t0 : Z) : frame * list entry * sgraph * world := (Frame false false false, [], sg_empty, w_empty t0).

(** A check on the state after a run *)
Definition after (tts : Z) (os : list iop) (P : frame → list entry → sgraph → world → bool) : bool :=
  match play tts (start 0) os with Some (f, log, s, w) => P f log s w | None => false end.
Lemma after_hist tts os P : after tts os P = true → ∃ f log s w, ihist tts 0 f log s w ∧ P f log s w = true.
Proof.
  unfold after, start. destruct (play _ _ os) as [[[[f log] s] w]|] eqn:E; [|done]. intros H. exists f, log, s, w. split; [|done].
  eapply play_hist; [apply ih_init|exact E].
Qed.
Definition is_ok {A} (r : res A) (P : A → bool) : bool := match r with Ok a => P a | _ => false end.

(** A destroyed static body which some island still lists though no edge joins
    it: the update after the split keeps it listed. *)
Definition os_stale : list iop :=
  [NewNode true false; NewNode true false; NewNode false false; NewEdge 0 2; NewEdge 0 1; Update 0; DelEdge 3; DelEdge 4; Update 1].
Theorem static_destruction_refuted : ∃ tts t0 f log s w x,
  ihist tts t0 f log s w ∧ ilegal s (DelNode x) ∧ istep tts w (DelNode x) = UB.
Proof.
  destruct (after_hist 2 os_stale (λ f log s w, bool_decide (is_Some (sg_nodes s !! 2)) &&
    match istep 2 w (DelNode 2) with UB => true | _ => false end)) as (f & log & s & w & H & E); [vm_compute; reflexivity|].
  apply andb_true_iff in E as [E1 E2]. exists 2%Z, 0%Z, f, log, s, w, 2. split_and!; [done|exact (bool_decide_eq_true_1 _ E1)|].
  by destruct (istep 2 w (DelNode 2)).
Qed.

(** One update which finds a destroyed edge and a new one may leave a body in
    the island of bodies it is not connected to. *)
Definition os_mixed : list iop :=
  [NewNode true false; NewNode true false; NewNode true false; NewNode true false; NewNode true false;
   NewEdge 0 1; NewEdge 2 3; NewEdge 3 4; Update 0; DelEdge 5; NewEdge 1 2].
Theorem island_exact_mixed_refuted : ∃ tts t0 f log s w t w' r x y,
  ihist tts t0 f log s w ∧ istep tts w (Update t) = Ok (w', r) ∧ procedural s x ∧ procedural s y ∧ together w' x y ∧ ¬ pconn s x y.
Proof.
  destruct (after_hist 2 os_mixed (λ f log s w, is_ok (istep 2 w (Update 1)) (λ '(w', r),
    bool_decide (sg_nodes s !! 0 = Some true) && bool_decide (sg_nodes s !! 1 = Some true) &&
    bool_decide (w_res w' !! 0 = Some (Some 9)) && bool_decide (w_res w' !! 1 = Some (Some 9)) &&
    forallb (λ p, bool_decide (p.2.1 ≠ 0 ∧ p.2.2 ≠ 0)) (map_to_list (sg_edges s))))) as (f & log & s & w & H & E).
  { vm_compute. reflexivity. }
  destruct (istep 2 w (Update 1)) as [[w' r]| | |] eqn:Es; try done. cbn [is_ok] in E.
  rewrite !andb_true_iff, !bool_decide_eq_true in E. destruct E as [[[[E1 E2] E3] E4] E5].
  exists 2%Z, 0%Z, f, log, s, w, 1%Z, w', r, 0, 1. split_and!; [done..|by exists 9|].
  assert (Hl : ∀ y, ¬ linked s 0 y).
  { intros y [k Hk]. assert (∃ v, (k, v) ∈ map_to_list (sg_edges s) ∧ (v.1 = 0 ∨ v.2 = 0)) as (v & Hv & Hz).
    { destruct Hk as [Hk|Hk]; eexists; (split; [by apply elem_of_map_to_list|]); cbn; auto. }
    rewrite forallb_forall in E5. apply elem_of_list_In, E5, bool_decide_eq_true_1 in Hv. cbn in Hv. lia. }
  assert (Hc : ∀ y, pconn s 0 y → y = 0).
  { induction 1 as [|y z Hy IH Hyz Hz]; [done|]. subst y. by destruct (Hl z). }
  intros Hp%Hc. done.
Qed.

(** The claim that every body put to sleep has been slow for the whole span is
    false: a body that was fast in the update before is put to sleep at once
    when it joins an island whose timer runs. *)
Definition os_merge : list iop :=
  [NewNode true false; NewNode true false; NewNode true false; NewEdge 0 1; SetFast {[2]}; Update 0; Update 1; Update 2; Update 3;
   NewEdge 0 2; SetFast ∅].
Theorem sleep_after_merge_refuted : ∃ tts t0 f log s w t w' r x e,
  ihist tts t0 f log s w ∧ istep tts w (Update t) = Ok (w', r) ∧ x ∉ w_asleep w ∧ x ∈ w_asleep w' ∧
  head log = Some e ∧ x ∈ en_fast e ∧ (w_last w - en_time e ≤ tts)%Z.
Proof.
  destruct (after_hist 2 os_merge (λ f log s w, is_ok (istep 2 w (Update 4)) (λ '(w', r),
    match log with e :: _ =>
      bool_decide (2 ∉ w_asleep w) && bool_decide (2 ∈ w_asleep w') && bool_decide (2 ∈ en_fast e) && (w_last w - en_time e <=? 2)%Z
    | [] => false end))) as (f & log & s & w & H & E).
  { vm_compute. reflexivity. }
  destruct (istep 2 w (Update 4)) as [[w' r]| | |] eqn:Es; try done. cbn [is_ok] in E. destruct log as [|e log]; [done|].
  rewrite !andb_true_iff, !bool_decide_eq_true in E. destruct E as [[[E1 E2] E3] E4].
  exists 2%Z, 0%Z, f, (e :: log), s, w, 4%Z, w', r, 2, e. split_and!; try done. by apply Z.leb_le.
Qed.

(** Changing the kind of a body, and clearing a constraint while keeping its
    entity, are outside the histories.  What they do: *)
(** A body made static before its first update: the null island is pushed. *)
Theorem static_before_update_refuted : ∃ tts t0 f log s w x,
  ihist tts t0 f log s w ∧ procedural s x ∧ set_kind w x false = UB.
Proof.
  destruct (after_hist 2 [NewNode true false] (λ f log s w, bool_decide (sg_nodes s !! 0 = Some true) &&
    match set_kind w 0 false with UB => true | _ => false end)) as (f & log & s & w & H & E); [vm_compute; reflexivity|].
  apply andb_true_iff in E as [E1 E2]. exists 2%Z, 0%Z, f, log, s, w, 0. split_and!; [done|exact (bool_decide_eq_true_1 _ E1)|].
  by destruct (set_kind w 0 false).
Qed.
(** The middle body of a chain made static: the outer two stay in one island
    after the next update. *)
Theorem static_does_not_split_refuted : ∃ tts t0 f log s w x w1 t w2 a b,
  ihist tts t0 f log s w ∧ set_kind w x false = Ok w1 ∧ update tts w1 t = Ok w2 ∧ together w2 a b ∧ a ≠ b ∧
  ∀ k, is_edge s k → (ends s k a ∨ ends s k b) → ends s k x.
Proof.
  destruct (after_hist 2 [NewNode true false; NewNode true false; NewNode true false; NewEdge 0 1; NewEdge 1 2; Update 0]
    (λ f log s w, is_ok (set_kind w 1 false) (λ w1, is_ok (update 2 w1 1) (λ w2,
      bool_decide (w_res w2 !! 0 = Some (Some 5)) && bool_decide (w_res w2 !! 2 = Some (Some 5)) &&
      forallb (λ p, bool_decide (p.2.1 = 1 ∨ p.2.2 = 1)) (map_to_list (sg_edges s)))))) as (f & log & s & w & H & E).
  { vm_compute. reflexivity. }
  destruct (set_kind w 1 false) as [w1| | |] eqn:E1; try done. cbn [is_ok] in E. destruct (update 2 w1 1) as [w2| | |] eqn:E2; try done. cbn [is_ok] in E.
  rewrite !andb_true_iff, !bool_decide_eq_true in E. destruct E as [[E3 E4] E5].
  exists 2%Z, 0%Z, f, log, s, w, 1, w1, 1%Z, w2, 0, 2. split_and!; [done..|by exists 5|done|].
  intros k [[u v] Hk] _. rewrite forallb_forall in E5. pose proof Hk as Hv. apply elem_of_map_to_list, elem_of_list_In, E5, bool_decide_eq_true_1 in Hv.
  cbn in Hv. destruct Hv as [-> | ->]; eexists; eauto.
Qed.
(** A constraint cleared in the frame in which it was made. *)
Theorem clear_new_constraint_refuted : ∃ tts t0 f log s w k w1 t,
  ihist tts t0 f log s w ∧ is_edge s k ∧ clear_edge w k = Ok w1 ∧ update tts w1 t = UB.
Proof.
  destruct (after_hist 2 [NewNode true false; NewNode true false; NewEdge 0 1]
    (λ f log s w, bool_decide (is_Some (sg_edges s !! 2)) && is_ok (clear_edge w 2) (λ w1, match update 2 w1 0 with UB => true | _ => false end)))
    as (f & log & s & w & H & E).
  { vm_compute. reflexivity. }
  apply andb_true_iff in E as [E0 E]. destruct (clear_edge w 2) as [w1| | |] eqn:E1; try done. cbn [is_ok] in E.
  exists 2%Z, 0%Z, f, log, s, w, 2, w1, 0%Z. split_and!; [done|exact (bool_decide_eq_true_1 _ E0)|done|]. by destruct (update 2 w1 0).
Qed.

(** Concrete cases: a chain and a static body; a split; sleep and waking. *)
Definition os_chain : list iop :=
  [NewNode true false; NewNode true false; NewNode true false; NewNode false false; NewEdge 0 1; NewEdge 1 2; NewEdge 0 3; Update 0].
Example chain_one_island : after 2 os_chain (λ f log s w,
  negb (fr_mixed f) && bool_decide (w_res w !! 0 = w_res w !! 2) && bool_decide (is_Some (w_res w !! 0))) = true.
Proof. vm_compute. reflexivity. Qed.
Example chain_split : after 2 (os_chain ++ [DelEdge 5; Update 1]) (λ f log s w,
  negb (fr_mixed f) && bool_decide (w_res w !! 0 = w_res w !! 1) && negb (bool_decide (w_res w !! 0 = w_res w !! 2))) = true.
Proof. vm_compute. reflexivity. Qed.
Definition os_sleep : list iop := [NewNode true false; NewNode true false; NewEdge 0 1; Update 0; Update 1; Update 2; Update 3; Update 4].
Example pair_sleeps : after 2 os_sleep (λ f log s w, bool_decide (0 ∈ w_asleep w) && bool_decide (1 ∈ w_asleep w)) = true.
Proof. vm_compute. reflexivity. Qed.
Example pair_wakes : after 2 (os_sleep ++ [DelEdge 2; Update 5]) (λ f log s w, bool_decide (0 ∉ w_asleep w) && bool_decide (1 ∉ w_asleep w)) = true.
Proof. vm_compute. reflexivity. Qed.
Example pair_joined_wakes : after 2 (os_sleep ++ [NewNode true false; NewEdge 0 4; Update 5]) (λ f log s w, bool_decide (0 ∉ w_asleep w) && bool_decide (1 ∉ w_asleep w)) = true.
Proof. vm_compute. reflexivity. Qed.

Print Assumptions island_calls_total.
Print Assumptions island_members.
Print Assumptions island_connected.
Print Assumptions island_exact.
Print Assumptions island_sleeps_whole.
Print Assumptions connected_sleep_together.
Print Assumptions sleep_only_in_update.
Print Assumptions sleep_only_when_calm.
Print Assumptions new_edge_wakes.
Print Assumptions destruction_wakes.
Print Assumptions static_destruction_refuted.
Print Assumptions island_exact_mixed_refuted.
Print Assumptions sleep_after_merge_refuted.
Print Assumptions static_before_update_refuted.
Print Assumptions static_does_not_split_refuted.
Print Assumptions clear_new_constraint_refuted.
