(** Invariants of histories of calls and updates. *)
From Coq Require Import ZArith.
From Verif Require Import Outcome FreeListModel FreeListProofs GraphModel GraphSpec GraphProofs GraphHist GraphWalk GraphMain
  IslModel IslSpec IslBase IslInv IslData IslRel IslReach IslInit IslSplit IslOne IslUpd IslOps IslMake.

Record hinv (f : frame) (log : list entry) (s : sgraph) (w : world) : Prop := {
  hi_core : core s w;
  hi_rel : ∃ m, rel s m w;
  hi_new : fr_new f = false → no_null_edge s w;
  hi_del : fr_del f = false → w_split w = [];
  hi_settled : fr_mixed f = false → ∀ J, J ∉ w_split w → settled s w J;
  hi_stamp : ∀ h il t0, w_isl w !! h = Some il → il_sleep il = Some t0 → h ∉ w_asleep w ∧ calm_since log h t0
}.

Lemma core_empty t0 : core sg_empty (w_empty t0).
Proof.
  assert (Hs : ∀ x, ¬ is_edge sg_empty x) by (intros x [v H]; done).
  assert (Hn : ∀ x : nat, is_Some (@None bool) → False) by (intros x [v H]; done).
  assert (Hm : ∀ h x, ¬ member (w_empty t0) h x) by (intros h x (il & H & _); done).
  assert (Hi : ∀ h, ¬ is_island (w_empty t0) h) by (intros h [v H]; done).
  assert (Hd : ∀ k x, ¬ ends sg_empty k x) by (intros k x [y [H|H]]; done).
  split.
  - split.
    + intros x. split; [by intros [v H]|]. intros [H|H]; [done|by apply Hs in H].
    + intros x h Hx. done.
    + intros k h Hk. by apply Hs in Hk.
    + intros h x Hx. by apply Hm in Hx.
    + intros h x (il & H & _). done.
    + intros k h x Hx. by apply Hd in Hx.
    + intros k h Hk. by apply Hs in Hk.
  - split.
    + done.
    + intros x. split; [by intros [v H]|done].
    + done.
    + intros h x is Hx. by apply Hm in Hx.
    + intros x. cbn. split; [by intros ?%elem_of_empty|]. intros [[v H]|[H|H]]; [done|by apply Hs in H|by apply Hi in H].
    + intros x [v H]. done.
    + intros x H. by apply Hs in H.
    + intros x H. by apply Hi in H.
    + intros x. cbn. by intros ?%elem_of_nil.
    + intros x. cbn. split; [by intros ?%elem_of_empty|done].
  - split; cbn; [intros x H|intros x h H]; done.
  - constructor.
  - split; cbn; try (by intros x ?%elem_of_nil); [intros x H|intros k x H]; [done|by apply Hd in H].
  - intros k x Hk. by apply Hd in Hk.
Qed.
Lemma rel_empty t0 : rel sg_empty mg_empty (w_empty t0).
Proof.
  split; try done.
  - apply hist_init.
  - intros x i. cbn. split; [done|]. by intros [b H].
  - by intros x [v H].
  - intros k e. cbn. split; [done|]. by intros (i & j & H).
  - by intros k [v H].
Qed.
Lemma hinv_empty t0 : hinv (Frame false false false) [] sg_empty (w_empty t0).
Proof.
  split; try done.
  - apply core_empty.
  - eexists. apply rel_empty.
Qed.

Lemma hinv_kept f log s s' w w' f' : hinv f log s w → core s' w' → (∃ m, rel s' m w') → kept w w' →
  (fr_new f' = false → no_null_edge s' w') → (fr_del f' = false → w_split w' = []) →
  (fr_mixed f' = false → ∀ J, J ∉ w_split w' → settled s' w' J) → hinv f' log s' w'.
Proof.
  intros H C R K H1 H2 H3. split; try done. intros h il t0 Hh Ht. destruct (kt_stamp _ _ K h il Hh) as (il0 & Hil0 & E).
  rewrite E in Ht. destruct (hi_stamp _ _ _ _ H h il0 t0 Hil0 Ht) as [Ha Hc]. split; [|done]. intros Hs. apply Ha, (kt_asleep _ _ K); [by eexists|done].
Qed.

Lemma calm_spec w il : calm w il = true ↔ ∀ x, x ∈ il_nodes il → x ∉ w_fast w ∧ x ∉ w_nosleep w.
Proof.
  unfold calm. rewrite andb_true_iff, !forallb_forall. setoid_rewrite bool_decide_eq_true. setoid_rewrite <- elem_of_list_In.
  split; [intros [? ?] x ?; auto|]. intros H. split; intros x Hx; apply H in Hx; tauto.
Qed.

(** The entry of an update *)
Section upd.
Context (tts : Z) (f : frame) (log : list entry) (s : sgraph) (m : mgraph) (w w' : world) (t : Z).
Context (H : hinv f log s w) (U : updated tts s m w w' t).
Let e := Entry (w_last w) (w_fast w) (w_nosleep w) (il_nodes <$> w_isl w').

Lemma upd_stamp h il t0 : w_isl w' !! h = Some il → il_sleep il = Some t0 → h ∉ w_asleep w' ∧ calm_since (e :: log) h t0.
Proof using H U.
  destruct (up_sleep _ _ _ _ _ _ U) as (w2 & Hst & Hsub & _ & Hf & Hn & Hl & HI & HA & _).
  intros Hh Ht. pose proof (HI h) as Hh2. rewrite Hh in Hh2. destruct (w_isl w2 !! h) as [il2|] eqn:E2; [|done]. cbn in Hh2. injection Hh2 as Eil.
  assert (Hen : en_isl e !! h = Some (il_nodes il2)) by (cbn; rewrite lookup_fmap, Hh; subst il; done).
  assert (Hs : il_sleep il2 = None ∨ ∃ il0, w_isl w !! h = Some il0 ∧ il_sleep il2 = il_sleep il0) by (by apply Hst).
  assert (Hold : ∀ t1, il_sleep il2 = Some t1 → h ∉ w_asleep w ∧ calm_since log h t1).
  { intros t1 H1. destruct Hs as [?|(il0 & Hil0 & E)]; [congruence|]. rewrite E in H1. by apply (hi_stamp _ _ _ _ H h il0). }
  subst il. cbn in Ht. unfold stamp' in Ht. rewrite (HA h il2 E2). case_decide as Ha.
  { exfalso. destruct (Hold t0 Ht) as [Hx _]. by apply Hx, Hsub. }
  destruct (calm w2 il2) eqn:Ec; [|done]. assert (Hc : calm_in e h).
  { exists (il_nodes il2). split; [done|]. cbn. rewrite <- Hf, <- Hn. by apply calm_spec. }
  unfold falls. rewrite Ec. cbn [andb]. destruct (il_sleep il2) as [t1|] eqn:Et.
  - destruct (tts <? w_last w2 - t1)%Z eqn:Elt; [done|]. injection Ht as ->. split; [by intros [?|?]|].
    destruct (Hold t0 eq_refl) as [_ (recent & older & e0 & -> & Hla & Het & Hal)].
    exists (e :: recent), older, e0. split_and!; [done| |done|].
    + by destruct recent.
    + intros e1 [->|He1]%elem_of_cons; [done|by apply Hal].
  - injection Ht as <-. split; [by intros [?|?]|]. exists [e], log, e. split_and!; [done..|cbn; by rewrite Hl|]. by intros e1 ->%elem_one.
Qed.

(** An island that was awake before and sleeps after has been calm for long *)
Lemma upd_falls h il : w_isl w' !! h = Some il → h ∈ w_asleep w' → h ∉ w_asleep w →
  is_island w h ∧ ∃ t0, calm_since (e :: log) h t0 ∧ (tts < w_last w - t0)%Z.
Proof using H U.
  destruct (up_sleep _ _ _ _ _ _ U) as (w2 & Hst & Hsub & _ & Hf & Hn & Hl & HI & HA & _).
  intros Hh Hs Ha. pose proof (HI h) as Hh2. rewrite Hh in Hh2. destruct (w_isl w2 !! h) as [il2|] eqn:E2; [|done]. cbn in Hh2. injection Hh2 as Eil.
  assert (Hen : en_isl e !! h = Some (il_nodes il2)) by (cbn; rewrite lookup_fmap, Hh; subst il; done).
  apply (HA h il2 E2) in Hs as [Hs|Hs]; [by destruct Ha; apply Hsub|]. unfold falls in Hs. apply andb_true_iff in Hs as [Hc Ht].
  destruct (il_sleep il2) as [t1|] eqn:Et; [|done]. destruct (Hst h il2 E2) as [?|(il0 & Hil0 & E)]; [congruence|].
  split; [by eexists|]. exists t1. destruct (hi_stamp _ _ _ _ H h il0 t1 Hil0) as [_ (recent & older & e0 & -> & Hla & Het & Hal)]; [congruence|].
  split; [|rewrite <- Hl; by apply Z.ltb_lt].
  exists (e :: recent), older, e0. split_and!; [done|by destruct recent|done|].
  intros e1 [->|He1]%elem_of_cons; [|by apply Hal]. exists (il_nodes il2). split; [done|]. cbn. rewrite <- Hf, <- Hn. by apply calm_spec.
Qed.

Lemma upd_hinv : hinv (fnext f (Update t)) (e :: log) s w'.
Proof using H U.
  destruct (up_empty _ _ _ _ _ _ U) as [E1 E2]. split.
  - eapply inv_core; [apply (up_inv _ _ _ _ _ _ U)|apply (up_queue _ _ _ _ _ _ U)].
  - exists m. apply (up_inv _ _ _ _ _ _ U).
  - intros _ k x Hk Hp Hn. apply (up_complete _ _ _ _ _ _ U x Hp). right. eauto.
  - done.
  - cbn. intros Hf%orb_false_iff J _. destruct Hf as [Hm Hf]. apply tight_settled; [apply U|].
    apply (up_tight _ _ _ _ _ _ U).
    + apply andb_false_iff in Hf as [Hf|Hf]; [right; by apply (hi_new _ _ _ _ H)|left; by apply (hi_del _ _ _ _ H)].
    + intros J' HJ'. by apply settled_tight, (hi_settled _ _ _ _ H).
  - apply upd_stamp.
Qed.
End upd.

Lemma hist_hinv tts t0 f log s w : ihist tts t0 f log s w → hinv f log s w.
Proof.
  induction 1 as [|f log s w o w' r H IH Hl Hst]; [apply hinv_empty|].
  pose proof (hi_core _ _ _ _ IH) as C. destruct (hi_rel _ _ _ _ IH) as [m R].
  assert (Hdel : ∀ s' g, del_post s s' w w' → fr_new g = fr_new f → fr_del g = true → fr_mixed g = fr_mixed f → hinv g log s' w').
  { intros s' g D E1 E2 E3. eapply hinv_kept; [exact IH|apply D..| | |].
    - rewrite E1. intros E. by apply (dp_null _ _ _ _ D), (hi_new _ _ _ _ IH).
    - congruence.
    - rewrite E3. intros E J HJ. apply (dp_settled _ _ _ _ D); [done|]. apply (hi_settled _ _ _ _ IH E).
      intros ?. by apply HJ, (dp_split _ _ _ _ D). }
  destruct o as [p ns|a b|x|k|fs|t]; cbn [istep] in Hst; cbn [lnext].
  - destruct (new_node_ok s m w p ns C R) as (w1 & H1 & NP & Hnn). rewrite H1 in Hst. injection Hst as <- <-.
    eapply hinv_kept; [exact IH|apply NP..| | |]; cbn [fnext].
    + intros E. by apply Hnn, (hi_new _ _ _ _ IH).
    + rewrite (np_split _ _ _ _ NP). apply IH.
    + intros E J. rewrite (np_split _ _ _ _ NP). intros HJ. by apply (np_settled _ _ _ _ NP), (hi_settled _ _ _ _ IH).
  - destruct Hl as (Ha & Hb & Hab). destruct (new_edge_ok s m w a b C R Ha Hb Hab) as (w1 & H1 & NP). rewrite H1 in Hst. injection Hst as <- <-.
    eapply hinv_kept; [exact IH|apply NP..| | |]; cbn [fnext fr_new fr_del fr_mixed].
    + done.
    + rewrite (np_split _ _ _ _ NP). apply IH.
    + intros E J. rewrite (np_split _ _ _ _ NP). intros HJ. by apply (np_settled _ _ _ _ NP), (hi_settled _ _ _ _ IH).
  - destruct (del_node w x) as [w1| | |] eqn:E; try done. cbn [mbind res_bind] in Hst. injection Hst as <- <-.
    destruct (del_node_ok s m w x C R Hl) as [_ HD]. eapply Hdel; [by apply HD|done..].
  - destruct (del_edge_ok s m w k C R Hl) as (w1 & H1 & HD). rewrite H1 in Hst. cbn [mbind res_bind] in Hst. injection Hst as <- <-.
    eapply Hdel; [by apply HD|done..].
  - injection Hst as <- <-. cbn [snext fnext].
    assert (K : kept w (set_fast w fs)) by (apply kept_same; auto).
    eapply hinv_kept; [exact IH| | |exact K|apply (hi_new _ _ _ _ IH)|apply (hi_del _ _ _ _ IH)|]; cycle 2.
    { intros E J HJ x y Hx Hy Hpx Hpy. pose proof (hi_settled _ _ _ _ IH E J HJ x y Hx Hy Hpx Hpy) as HO.
      clear -HO. induction HO as [|y z k Ho IHo Hk Hn Hp]; [by constructor|]. by eapply oc_step. }
    + destruct C as [P [] [] Hnd [] Hwf]. split; [done|by split|by split|done|by split|done].
    + exists m. by eapply rel_same.
  - destruct (update_ok tts s m w t) as (w1 & H1 & U); [by apply core_inv|apply C|]. rewrite H1 in Hst. cbn [mbind res_bind] in Hst. injection Hst as <- <-.
    cbn [snext]. by eapply upd_hinv.
Qed.

(** ** Between updates *)
Lemma step_kept tts t0 f log s w o w' r : ihist tts t0 f log s w → ilegal s o → (∀ t, o ≠ Update t) → istep tts w o = Ok (w', r) →
  kept w w' ∧ ((∃ x, o = DelNode x ∨ o = DelEdge x) → ∀ y h, in_island w y h → w_res w' !! y = None → h ∈ w_wake w').
Proof.
  intros H Hl Ho Hst. apply hist_hinv in H. pose proof (hi_core _ _ _ _ H) as C. destruct (hi_rel _ _ _ _ H) as [m R].
  destruct o as [p ns|a b|x|k|fs|t]; cbn [istep] in Hst.
  - destruct (new_node_ok s m w p ns C R) as (w1 & H1 & NP & _). rewrite H1 in Hst. injection Hst as <- <-. split; [apply NP|by intros (x & [?|?])].
  - destruct Hl as (Ha & Hb & Hab). destruct (new_edge_ok s m w a b C R Ha Hb Hab) as (w1 & H1 & NP). rewrite H1 in Hst. injection Hst as <- <-.
    split; [apply NP|by intros (x & [?|?])].
  - destruct (del_node w x) as [w1| | |] eqn:E; try done. cbn [mbind res_bind] in Hst. injection Hst as <- <-.
    destruct (del_node_ok s m w x C R Hl) as [_ HD]. specialize (HD _ E). split; [apply HD|]. intros _. apply HD.
  - destruct (del_edge_ok s m w k C R Hl) as (w1 & H1 & HD). rewrite H1 in Hst. cbn [mbind res_bind] in Hst. injection Hst as <- <-.
    split; [apply HD|]. intros _. apply HD.
  - injection Hst as <- <-. split; [apply kept_same; auto|by intros (x & [?|?])].
  - by destruct (Ho t).
Qed.
Lemma quiet_hist tts t0 f log s w s' w' : ihist tts t0 f log s w → quiet tts s w s' w' → ∃ f', ihist tts t0 f' log s' w'.
Proof.
  intros H. induction 1 as [|s' w' o w'' r HQ [f' IH] Hl Ho Hst]; [eauto|]. exists (fnext f' o).
  assert (E : lnext log w' w'' o = log) by (destruct o; try done; by destruct (Ho t)). rewrite <- E. by eapply ih_step.
Qed.
Lemma quiet_wake tts t0 f log s w s' w' h : ihist tts t0 f log s w → quiet tts s w s' w' → h ∈ w_wake w → h ∈ w_wake w'.
Proof.
  intros H. induction 1 as [|s' w' o w'' r HQ IH Hl Ho Hst]; [done|]. intros Hh.
  destruct (quiet_hist _ _ _ _ _ _ _ _ H HQ) as [f' H']. destruct (step_kept _ _ _ _ _ _ _ _ _ H' Hl Ho Hst) as [K _]. by apply K, IH.
Qed.
Lemma quiet_island tts t0 f log s w s' w' y h : ihist tts t0 f log s w → quiet tts s w s' w' → in_island w' y h → in_island w y h.
Proof.
  intros H. induction 1 as [|s' w' o w'' r HQ IH Hl Ho Hst]; [done|]. intros Hh.
  destruct (quiet_hist _ _ _ _ _ _ _ _ H HQ) as [f' H']. destruct (step_kept _ _ _ _ _ _ _ _ _ H' Hl Ho Hst) as [K _].
  by apply IH, (kt_res _ _ K).
Qed.
