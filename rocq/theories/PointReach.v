(** Reachable contact registries; equality of the two narrowphase forms. *)
From Verif Require Import Outcome BoxModel PointModel PointSpec PointProofs PointSlot PointProcess PointFinish PointUpdate.

Section reach.
Context {V Sc X : Type} (G : geo V Sc) (nz : rpoint V X → bool) (dflt : rpoint V X).
Notation preg := (preg V X).
Notation rpoint := (rpoint V X).
Notation entry := (nat * (rpoint * nat))%type.
Notation astate := (gmap nat (list entry)).

Definition small (A : astate) : Prop := ∀ m l, A !! m = Some l → length l ≤ max_contacts.

(** ** Observers *)
Lemma walk_ok (A : astate) f r m todo : ∀ pre fuel,
  repr A f r → A !! m = Some (pre ++ todo) → length todo ≤ fuel →
  walk fuel (pr_cp r) (fst <$> head todo) = Ok todo.
Proof.
  induction todo as [|[x d] todo IH]; intros pre fuel HR HA Hf; [by destruct fuel|].
  destruct fuel as [|fuel]; [simpl in Hf; lia|]. simpl in Hf.
  assert (Hget : pr_cp r !! x = Some (CP m (fst <$> head todo) d.1 d.2)).
  { rewrite (rp_get _ _ _ HR m (pre ++ (x, d) :: todo) (length pre) x d HA) by (by rewrite lookup_app_r, Nat.sub_diag).
    rewrite lookup_app_r by lia. replace (S (length pre) - length pre) with 1 by lia. simpl. by destruct todo. }
  assert (HA' : A !! m = Some ((pre ++ [(x, d)]) ++ todo)) by (by rewrite <- (assoc_L (++))).
  change (fst <$> head ((x, d) :: todo)) with (Some x). cbn [walk]. rewrite Hget. cbn [opt_res mbind res_bind cp_next cp_pt cp_life].
  rewrite (IH _ _ HR HA') by lia. cbn [mbind res_bind]. by destruct d.
Qed.
Lemma contact_list_ok (A : astate) f r m l : repr A f r → A !! m = Some l → contact_list r m = Ok l.
Proof.
  intros HR HA. unfold contact_list. rewrite (rp_man _ _ _ HR), HA. cbn [fmap option_fmap option_map opt_res mbind res_bind].
  apply (walk_ok A f r m l []); [done|done|]. by eapply repr_cp_size.
Qed.
Lemma repr_well_formed (A : astate) f r : repr A f r → small A → well_formed r.
Proof.
  intros HR HS. split.
  - intros m n h Hm. rewrite (rp_man _ _ _ HR) in Hm. destruct (A !! m) as [l|] eqn:E; [|done]. simpl in Hm. injection Hm as <- <-.
    exists l. split_and!; [by eapply contact_list_ok|done|exact (HS _ _ E)|by eapply rp_nodup|].
    intros x (i & d & Hi)%ids_lookup. eexists. split; [exact (rp_get _ _ _ HR _ _ _ _ _ E Hi)|done].
  - intros x c Hc. destruct (rp_own _ _ _ HR _ _ Hc) as (l & Hl & Hx). exists l. split; [|done]. by eapply contact_list_ok.
Qed.

(** ** Manifolds *)
Lemma repr_init f : repr (V:=V) (X:=X) ∅ f (PReg ∅ ∅ f).
Proof.
  constructor; simpl; try done; intros; try (by rewrite lookup_empty in *).
  rewrite lookup_empty in *. by destruct H.
Qed.
Lemma repr_make A f (r : preg) : repr A f r → repr (<[f := []]> A) (S f) (make_manifold r).
Proof.
  intros HR. assert (Hf : A !! f = None).
  { destruct (A !! f) eqn:E; [|done]. assert (f < f) by (apply (rp_oldm _ _ _ HR); eauto). lia. }
  constructor; simpl; rewrite ?(rp_fresh _ _ _ HR).
  - done.
  - intros m. destruct (decide (m = f)) as [->|]; [by rewrite !lookup_insert|]. rewrite !lookup_insert_ne by done. apply HR.
  - intros m l i x d. destruct (decide (m = f)) as [->|]; [rewrite lookup_insert; by intros [= <-]|].
    rewrite lookup_insert_ne by done. apply HR.
  - intros x c Hc. destruct (rp_own _ _ _ HR _ _ Hc) as (l & Hl & Hx). exists l. split; [|done].
    rewrite lookup_insert_ne; [done|]. intros E. by rewrite <- E, Hf in Hl.
  - intros m l. destruct (decide (m = f)) as [->|]; [rewrite lookup_insert; intros [= <-]; constructor|].
    rewrite lookup_insert_ne by done. apply HR.
  - intros m1 m2 l1 l2 x. destruct (decide (m1 = f)) as [->|].
    { rewrite lookup_insert. intros [= <-] _ ?%elem_of_nil. done. }
    destruct (decide (m2 = f)) as [->|].
    { rewrite lookup_insert. intros _ [= <-] _ ?%elem_of_nil. done. }
    rewrite !lookup_insert_ne by done. apply HR.
  - intros m l x. destruct (decide (m = f)) as [->|]; [rewrite lookup_insert; intros [= <-] ?%elem_of_nil; done|].
    rewrite lookup_insert_ne by done. intros H1 H2. pose proof (rp_old _ _ _ HR _ _ _ H1 H2). lia.
  - intros m. destruct (decide (m = f)) as [->|]; [lia|]. rewrite lookup_insert_ne by done. intros H. pose proof (rp_oldm _ _ _ HR _ H). lia.
Qed.
Lemma destroy_all_spec m (l : list entry) : ∀ fuel (cps : gmap nat (cpoint V X)),
  NoDup l.*1 → (∀ i x d, l !! i = Some (x, d) → cps !! x = Some (CP m (fst <$> l !! S i) d.1 d.2)) → length l ≤ fuel →
  ∃ cps', destroy_all fuel cps (fst <$> head l) = Ok cps' ∧ ∀ y, cps' !! y = if decide (y ∈ l.*1) then None else cps !! y.
Proof.
  induction l as [|[x d] l IH]; intros fuel cps Hn Hg Hf.
  - exists cps. split; [by destruct fuel|]. intros y. rewrite decide_False; [done|]. apply not_elem_of_nil.
  - destruct fuel as [|fuel]; [simpl in Hf; lia|]. simpl in Hf, Hn. apply NoDup_cons in Hn as [Hx Hn].
    change (fst <$> head ((x, d) :: l)) with (Some x). cbn [destroy_all]. rewrite (Hg 0 x d eq_refl). cbn [opt_res mbind res_bind cp_next].
    destruct (IH fuel (delete x cps) Hn) as (cps' & Hd & Hl).
    + intros i y dy Hi. rewrite lookup_delete_ne; [exact (Hg (S i) y dy Hi)|]. intros <-. apply Hx. apply ids_lookup. eauto.
    + lia.
    + exists cps'. split.
      * rewrite <- Hd. f_equal. by destruct l.
      * intros y. rewrite Hl. simpl. destruct (decide (y = x)) as [->|Hyx].
        -- rewrite decide_False by done. rewrite lookup_delete, decide_True by (by left). done.
        -- rewrite lookup_delete_ne by done. destruct (decide (y ∈ l.*1)); [rewrite decide_True by (by right)|rewrite decide_False by (rewrite not_elem_of_cons; done)]; done.
Qed.
Lemma repr_clear A f (r : preg) m l : repr A f r → A !! m = Some l →
  ∃ r', clear_contact_manifold r m = Ok r' ∧ repr (<[m := []]> A) f r'.
Proof.
  intros HR Hl. unfold clear_contact_manifold. rewrite (rp_man _ _ _ HR), Hl. cbn [fmap option_fmap option_map opt_res mbind res_bind].
  destruct (destroy_all_spec m l (size (pr_cp r)) (pr_cp r)) as (cps & Hd & Hg).
  { by eapply rp_nodup. } { intros. by eapply (rp_get _ _ _ HR). } { by eapply repr_cp_size. }
  rewrite Hd. cbn [mbind res_bind]. eexists. split; [done|]. constructor; simpl.
  - apply HR.
  - intros m'. destruct (decide (m' = m)) as [->|]; [by rewrite !lookup_insert|]. rewrite !lookup_insert_ne by done. apply HR.
  - intros m' l' i x d. destruct (decide (m' = m)) as [->|Hm]; [rewrite lookup_insert; by intros [= <-]|].
    rewrite lookup_insert_ne by done. intros Hl' Hi. rewrite Hg. rewrite decide_False; [exact (rp_get _ _ _ HR _ _ _ _ _ Hl' Hi)|].
    intros Hx. apply Hm. eapply (rp_disj _ _ _ HR); [exact Hl'|exact Hl|apply ids_lookup; eauto|done].
  - intros x c. rewrite Hg. case_decide as Hx; [done|]. intros Hc. destruct (rp_own _ _ _ HR _ _ Hc) as (l' & Hl' & Hx').
    exists l'. split; [|done]. rewrite lookup_insert_ne; [done|]. intros E. rewrite <- E in Hl'. congruence.
  - intros m' l'. destruct (decide (m' = m)) as [->|]; [rewrite lookup_insert; intros [= <-]; constructor|].
    rewrite lookup_insert_ne by done. apply HR.
  - intros m1 m2 l1 l2 x. destruct (decide (m1 = m)) as [->|].
    { rewrite lookup_insert. intros [= <-] _ ?%elem_of_nil. done. }
    destruct (decide (m2 = m)) as [->|].
    { rewrite lookup_insert. intros _ [= <-] _ ?%elem_of_nil. done. }
    rewrite !lookup_insert_ne by done. apply HR.
  - intros m' l' x. destruct (decide (m' = m)) as [->|]; [rewrite lookup_insert; intros [= <-] ?%elem_of_nil; done|].
    rewrite lookup_insert_ne by done. apply HR.
  - intros m'. destruct (decide (m' = m)) as [->|]; [|rewrite lookup_insert_ne by done; apply HR].
    intros _. apply (rp_oldm _ _ _ HR). eauto.
Qed.
Lemma repr_destroy_manifold A f (r : preg) m l : repr A f r → A !! m = Some l →
  ∃ r', destroy_manifold r m = Ok r' ∧ repr (delete m A) f r'.
Proof.
  intros HR Hl. unfold destroy_manifold. destruct (repr_clear _ _ _ _ _ HR Hl) as (r1 & -> & HR1). cbn [mbind res_bind].
  eexists. split; [done|].
  assert (Hdel : ∀ m' l', delete m A !! m' = Some l' → m' ≠ m ∧ <[m:=[]]> A !! m' = Some l').
  { intros m' l' [? ?]%lookup_delete_Some. split; [done|]. by rewrite lookup_insert_ne. }
  constructor; simpl.
  - apply HR1.
  - intros m'. destruct (decide (m' = m)) as [->|]; [by rewrite !lookup_delete|].
    rewrite !lookup_delete_ne by done. rewrite (rp_man _ _ _ HR1). by rewrite lookup_insert_ne.
  - intros m' l' i x d [_ H]%Hdel. by apply (rp_get _ _ _ HR1).
  - intros x c Hc. destruct (rp_own _ _ _ HR1 _ _ Hc) as (l' & Hl' & Hx). exists l'. split; [|done].
    destruct (decide (cp_parent c = m)) as [E|]; [rewrite E, lookup_insert in Hl'; injection Hl' as <-; by apply elem_of_nil in Hx|].
    rewrite lookup_insert_ne in Hl' by done. by rewrite lookup_delete_ne.
  - intros m' l' [_ H]%Hdel. by apply (rp_nodup _ _ _ HR1 m').
  - intros m1 m2 l1 l2 x [_ H1]%Hdel [_ H2]%Hdel. by apply (rp_disj _ _ _ HR1).
  - intros m' l' x [_ H]%Hdel. by apply (rp_old _ _ _ HR1 m').
  - intros m' [l' [_ H]%Hdel]. apply (rp_oldm _ _ _ HR1). eauto.
Qed.

(** ** One update *)
Lemma process_seq env m A f r l result :
  finite G → repr A f r → A !! m = Some l → length l ≤ max_contacts → legal_result nz result →
  ∃ s' l' news dels, a_process G dflt env l result = Ok (l', news, dels) ∧
    process G nz dflt false env m result (PSt r [] []) = Ok s' ∧
    repr (<[m := news_entries f news ++ del_ids dels l']> A) (f + length news) (ps_reg s') ∧
    length (news_entries f news ++ del_ids dels l') ≤ max_contacts.
Proof.
  intros HF HR Hl Hlen [Hr Hnz].
  destruct (process_spec G nz dflt false env m A f r l result HF HR Hl Hlen Hr Hnz) as (s' & l' & news & dels & Ha & Hp & HP & Hn & Hd & Hc).
  exists s', l', news, dels. split_and!; [done|done| |].
  - pose proof (pl_repr _ _ _ _ _ _ HP) as H. rewrite Hn, Hd in H. exact H.
  - rewrite app_length, news_entries_length. done.
Qed.

Lemma preach_repr r : finite G → preach G nz dflt r → ∃ A, repr A (pr_fresh r) r ∧ small A.
Proof.
  intros HF. assert (Hsm : ∀ (A : astate) m l, small A → length l ≤ max_contacts → small (<[m := l]> A)).
  { intros A m l HS Hl m' l'. destruct (decide (m' = m)) as [->|]; [rewrite lookup_insert; congruence|rewrite lookup_insert_ne by done; apply HS]. }
  assert (Hfr : ∀ A f r, repr (V:=V) (X:=X) A f r → repr A (pr_fresh r) r) by (intros A f r' H; by rewrite (rp_fresh _ _ _ H)).
  induction 1 as [f|r _ IH|r m r' _ IH Hc|r m r' _ IH Hc|r env m result s' _ IH Hres Hp].
  - exists ∅. split; [apply repr_init|]. intros m l. by rewrite lookup_empty.
  - destruct IH as (A & HR & HS). exists (<[pr_fresh r := []]> A). split; [eapply Hfr, repr_make, HR|]. apply Hsm; [done|simpl; unfold max_contacts; lia].
  - destruct IH as (A & HR & HS). destruct (A !! m) as [l|] eqn:E.
    2:{ unfold clear_contact_manifold in Hc. by rewrite (rp_man _ _ _ HR), E in Hc. }
    destruct (repr_clear _ _ _ _ _ HR E) as (r1 & Hc1 & HR1). rewrite Hc in Hc1. injection Hc1 as <-.
    eexists. split; [eapply Hfr, HR1|]. apply Hsm; [done|simpl; unfold max_contacts; lia].
  - destruct IH as (A & HR & HS). destruct (A !! m) as [l|] eqn:E.
    2:{ unfold destroy_manifold, clear_contact_manifold in Hc. by rewrite (rp_man _ _ _ HR), E in Hc. }
    destruct (repr_destroy_manifold _ _ _ _ _ HR E) as (r1 & Hc1 & HR1). rewrite Hc in Hc1. injection Hc1 as <-.
    eexists. split; [eapply Hfr, HR1|]. intros m' l' [_ H]%lookup_delete_Some. by apply (HS m').
  - destruct IH as (A & HR & HS). destruct (A !! m) as [l|] eqn:E.
    2:{ unfold process in Hp. simpl in Hp. by rewrite (rp_man _ _ _ HR), E in Hp. }
    destruct (process_seq env m A _ r l result HF HR E (HS _ _ E) Hres) as (s1 & l' & news & dels & _ & Hp1 & HR1 & Hlen).
    rewrite Hp in Hp1. injection Hp1 as <-. eexists. split; [eapply Hfr, HR1|]. by apply Hsm.
Qed.

(** ** Sequential and parallel narrowphase *)
Definition outcome := (list entry * list rpoint * list nat)%type.
Definition out_ok (detect : nat → list rpoint * penv V Sc X) (A : astate) (o : nat → outcome) (m : nat) : Prop :=
  ∃ l, A !! m = Some l ∧ length l ≤ max_contacts ∧ legal_result nz (detect m).1 ∧ a_process G dflt (detect m).2 l (detect m).1 = Ok (o m).

Fixpoint fin_state (o : nat → outcome) (ms : list nat) (A : astate) (f : nat) : astate * nat :=
  match ms with
  | [] => (A, f)
  | m :: ms => fin_state o ms (<[m := news_entries f (o m).1.2 ++ del_ids (o m).2 (o m).1.1]> A) (f + length (o m).1.2)
  end.

Lemma seq_fin detect o ms : finite G → ∀ A f r,
  repr A f r → NoDup ms → (∀ m, m ∈ ms → out_ok detect A o m) →
  ∃ r', seq_update G nz dflt detect r ms = Ok r' ∧ repr (fin_state o ms A f).1 (fin_state o ms A f).2 r'.
Proof.
  intros HF. unfold seq_update. induction ms as [|m ms IH]; intros A f r HR Hnd Ho; [by exists r|].
  apply NoDup_cons in Hnd as [Hm Hnd]. destruct (Ho m ltac:(by left)) as (l & Hl & Hlen & Hres & Ha).
  destruct (process_seq (detect m).2 m A f r l (detect m).1 HF HR Hl Hlen Hres) as (s1 & l' & news & dels & Ha' & Hp & HR1 & Hlen1).
  rewrite Ha in Ha'. injection Ha' as Ha'. cbn [foldl fin_state]. cbn [mbind res_bind]. rewrite Hp. cbn [mbind res_bind].
  rewrite Ha'. cbn [fst snd]. apply IH; [done|done|].
  intros m' Hm'. destruct (Ho m' ltac:(by right)) as (k & Hk & H). exists k. split; [|done].
  rewrite lookup_insert_ne; [done|]. intros ->. done.
Qed.

Definition out_good (o : outcome) : Prop :=
  length o.1.2 + length (del_ids o.2 o.1.1) ≤ max_contacts ∧ (∀ x, x ∈ o.2 → x ∈ o.1.1.*1) ∧ NoDup o.2 ∧ Forall (λ p, nz p = true) o.1.2.

Lemma par_one (detect : nat → list rpoint * penv V Sc X) (o : nat → outcome) m A f r :
  finite G → repr A f r → out_ok detect A o m →
  ∃ s', process G nz dflt true (detect m).2 m (detect m).1 (PSt r [] []) = Ok s' ∧
    repr (<[m := (o m).1.1]> A) f (ps_reg s') ∧ ps_new s' = (o m).1.2 ∧ ps_del s' = (o m).2 ∧ out_good (o m).
Proof.
  intros HF HR (l & Hl & Hlen & [Hr Hnz] & Ha).
  destruct (process_spec G nz dflt true (detect m).2 m A f r l (detect m).1 HF HR Hl Hlen Hr Hnz) as (s' & l' & news & dels & Ha' & Hp & HP & Hn & Hd & Hc).
  rewrite Ha in Ha'. injection Ha' as Ha'. rewrite Ha'. exists s'. unfold out_good. split_and!; try done.
  - exact (pl_repr _ _ _ _ _ _ HP).
  - intros x Hx. cbn [fst snd] in *. rewrite <- Hd in Hx. by apply (pl_dels _ _ _ _ _ _ HP).
  - cbn [snd]. rewrite <- Hd. apply (pl_dnodup _ _ _ _ _ _ HP).
  - cbn [fst snd]. rewrite Ha' in Ha.
    destruct (a_process_updated G nz dflt (detect m).2 f l (detect m).1 l' news dels HF) as (_ & _ & Hsub); try done.
    { by eapply rp_nodup. } { intros x Hx. by eapply rp_old. }
    apply Forall_forall. intros p Hp'. rewrite Forall_forall in Hnz. by apply Hnz, Hsub.
Qed.

Lemma par_detect_fin detect o order : finite G → ∀ A f r infos,
  repr A f r → NoDup order → (∀ m, m ∈ order → out_ok detect A o m) →
  ∃ r' infos' A', par_detect G nz dflt detect r infos order = Ok (r', infos') ∧ repr A' f r' ∧
    (∀ m, m ∈ order → A' !! m = Some (o m).1.1 ∧ infos' !! m = Some ((o m).1.2, (o m).2) ∧ out_good (o m)) ∧
    (∀ m, m ∉ order → A' !! m = A !! m ∧ infos' !! m = infos !! m).
Proof.
  intros HF. induction order as [|m order IH]; intros A f r infos HR Hnd Ho.
  { exists r, infos, A. split_and!; try done. intros ? ?%elem_of_nil. done. }
  apply NoDup_cons in Hnd as [Hm Hnd]. cbn [par_detect].
  destruct (par_one detect o m A f r HF HR (Ho m ltac:(by left))) as (s' & Hp & HR1 & Hn & Hd & Hg).
  rewrite Hp. cbn [mbind res_bind].
  destruct (IH _ f _ (<[m := (ps_new s', ps_del s')]> infos) HR1 Hnd) as (r' & infos' & A' & Hq & HR' & H1 & H2).
  { intros m' Hm'. destruct (Ho m' ltac:(by right)) as (k & Hk & H). exists k. split; [|done].
    rewrite lookup_insert_ne; [done|]. intros ->. done. }
  exists r', infos', A'. split_and!; try done.
  - intros m' [->|Hm']%elem_of_cons; [|by apply H1]. destruct (H2 m Hm) as [E1 E2]. rewrite E1, E2, !lookup_insert, Hn, Hd. done.
  - intros m' [? Hm']%not_elem_of_cons. destruct (H2 m' Hm') as [E1 E2]. rewrite E1, E2, !lookup_insert_ne by done. done.
Qed.

Lemma destroy_list_fin m f xs : ∀ (A : astate) r l,
  repr A f r → A !! m = Some l → NoDup xs → (∀ x, x ∈ xs → x ∈ l.*1) →
  ∃ r', destroy_list (Ok r) xs = Ok r' ∧ repr (<[m := del_ids xs l]> A) f r'.
Proof.
  induction xs as [|x xs IH]; intros A r l HR Hl Hnd Hx.
  { exists r. split; [done|]. simpl. by rewrite insert_id. }
  apply NoDup_cons in Hnd as [Hxx Hnd]. cbn [destroy_list foldl]. unfold destroy_list. cbn [foldl mbind res_bind].
  destruct (repr_destroy A f r m l x HR Hl ltac:(apply Hx; by left)) as (r1 & -> & HR1).
  destruct (IH (<[m := del_id x l]> A) r1 (del_id x l) HR1) as (r' & Hd & HR'); [by rewrite lookup_insert|done| |].
  { intros y Hy. apply del_id_ids. split; [apply Hx; by right|]. intros ->. done. }
  exists r'. split; [exact Hd|]. rewrite insert_insert in HR'. exact HR'.
Qed.
Lemma create_list_fin m f ps : ∀ (A : astate) r l,
  repr A f r → A !! m = Some l → length ps + length l ≤ max_contacts → Forall (λ p, nz p = true) ps →
  ∃ r', create_list nz m (Ok r) ps = Ok r' ∧ repr (<[m := news_entries f ps ++ l]> A) (f + length ps) r'.
Proof.
  induction ps as [|p ps IH] using rev_ind; intros A r l HR Hl Hlen Hnz.
  { exists r. split; [done|]. simpl. rewrite insert_id by done. by rewrite Nat.add_0_r. }
  rewrite app_length in Hlen. simpl in Hlen. apply Forall_app in Hnz as [Hnz Hp]. rewrite Forall_singleton in Hp.
  destruct (IH A r l HR Hl ltac:(lia) Hnz) as (r1 & Hc & HR1).
  unfold create_list in *. rewrite foldl_snoc, Hc. cbn [mbind res_bind].
  destruct (repr_create nz _ _ r1 m (news_entries f ps ++ l) p HR1) as (r2 & -> & HR2); [by rewrite lookup_insert|rewrite app_length, news_entries_length; lia|exact Hp|].
  exists r2. split; [done|]. rewrite insert_insert in HR2. rewrite news_entries_snoc, app_length. simpl.
  replace (f + (length ps + 1)) with (S (f + length ps)) by lia. exact HR2.
Qed.

Lemma destroy_phase (o : nat → outcome) (infos : gmap nat (list rpoint * list nat)) f ms : ∀ A r,
  repr A f r → NoDup ms →
  (∀ m, m ∈ ms → A !! m = Some (o m).1.1 ∧ infos !! m = Some ((o m).1.2, (o m).2) ∧ out_good (o m)) →
  ∃ r' A', foldl (λ r m, destroy_list r (default ([], []) (infos !! m)).2) (Ok r) ms = Ok r' ∧ repr A' f r' ∧
    (∀ m, m ∈ ms → A' !! m = Some (del_ids (o m).2 (o m).1.1)) ∧ (∀ m, m ∉ ms → A' !! m = A !! m).
Proof.
  induction ms as [|m ms IH]; intros A r HR Hnd Ho.
  { exists r, A. split_and!; try done. intros ? ?%elem_of_nil. done. }
  apply NoDup_cons in Hnd as [Hm Hnd]. cbn [foldl].
  destruct (Ho m ltac:(by left)) as (Hl & Hi & Hg & Hg2 & Hg3 & Hg4). rewrite Hi. cbn [default snd from_option id].
  destruct (destroy_list_fin m f (o m).2 A r (o m).1.1 HR Hl Hg3 Hg2) as (r1 & -> & HR1).
  destruct (IH _ _ HR1 Hnd) as (r' & A' & Hf & HR' & H1 & H2).
  { intros m' Hm'. destruct (Ho m' ltac:(by right)) as (Hk & H). split; [|done].
    rewrite lookup_insert_ne; [done|]. intros ->. done. }
  exists r', A'. split_and!; try done.
  - intros m' [->|Hm']%elem_of_cons; [|by apply H1]. rewrite (H2 m Hm), lookup_insert. done.
  - intros m' [? Hm']%not_elem_of_cons. rewrite (H2 m' Hm'), lookup_insert_ne by done. done.
Qed.
Lemma create_phase (o : nat → outcome) (infos : gmap nat (list rpoint * list nat)) ms : ∀ f A r,
  repr A f r → NoDup ms →
  (∀ m, m ∈ ms → A !! m = Some (del_ids (o m).2 (o m).1.1) ∧ infos !! m = Some ((o m).1.2, (o m).2) ∧ out_good (o m)) →
  ∃ r', foldl (λ r m, create_list nz m r (default ([], []) (infos !! m)).1) (Ok r) ms = Ok r' ∧
    repr (fin_state o ms A f).1 (fin_state o ms A f).2 r'.
Proof.
  induction ms as [|m ms IH]; intros f A r HR Hnd Ho; [by exists r|].
  apply NoDup_cons in Hnd as [Hm Hnd]. cbn [foldl fin_state].
  destruct (Ho m ltac:(by left)) as (Hl & Hi & Hg & Hg2 & Hg3 & Hg4). rewrite Hi. cbn [default fst from_option id].
  destruct (create_list_fin m f (o m).1.2 A r _ HR Hl Hg Hg4) as (r1 & -> & HR1).
  apply IH; [done|done|].
  intros m' Hm'. destruct (Ho m' ltac:(by right)) as (Hk & H). split; [|done].
  rewrite lookup_insert_ne; [done|]. intros ->. done.
Qed.
Lemma fin_state_agree (o : nat → outcome) ms : ∀ A1 A2 f, (∀ m, m ∉ ms → A1 !! m = A2 !! m) →
  fin_state o ms A1 f = fin_state o ms A2 f.
Proof.
  induction ms as [|m ms IH]; intros A1 A2 f H; simpl.
  - f_equal. apply map_eq. intros m. apply H. apply not_elem_of_nil.
  - apply IH. intros m' Hm'. destruct (decide (m' = m)) as [->|]; [by rewrite !lookup_insert|].
    rewrite !lookup_insert_ne by done. apply H. rewrite not_elem_of_cons. done.
Qed.

Lemma par_fin detect o order ms A f r : finite G →
  repr A f r → NoDup ms → order ≡ₚ ms → (∀ m, m ∈ ms → out_ok detect A o m) →
  ∃ r', par_update G nz dflt detect r order ms = Ok r' ∧ repr (fin_state o ms A f).1 (fin_state o ms A f).2 r'.
Proof.
  intros HF HR Hnd Hperm Ho. unfold par_update.
  destruct (par_detect_fin detect o order HF A f r ∅ HR) as (r1 & infos & A1 & -> & HR1 & H1 & H2).
  { by rewrite Hperm. } { intros m Hm. apply Ho. by rewrite <- Hperm. }
  cbn [mbind res_bind]. unfold par_finish.
  destruct (destroy_phase o infos f ms A1 r1 HR1 Hnd) as (r2 & A2 & -> & HR2 & H3 & H4).
  { intros m Hm. apply H1. by rewrite Hperm. }
  destruct (create_phase o infos ms f A2 r2 HR2 Hnd) as (r3 & -> & HR3).
  { intros m Hm. split_and!; [by apply H3|..]; apply H1; by rewrite Hperm. }
  exists r3. split; [done|]. rewrite (fin_state_agree o ms A A2); [done|].
  intros m Hm. rewrite (H4 m Hm). symmetry. apply H2. by rewrite Hperm.
Qed.

Lemma narrowphase_same detect order ms r : finite G → preach G nz dflt r → NoDup ms → order ≡ₚ ms →
  (∀ m, m ∈ ms → is_Some (pr_man r !! m) ∧ legal_result nz (detect m).1) →
  ∃ r', seq_update G nz dflt detect r ms = Ok r' ∧ par_update G nz dflt detect r order ms = Ok r'.
Proof.
  intros HF Hr Hnd Hperm Hms. destruct (preach_repr r HF Hr) as (A & HR & HS).
  set (o := λ m, match A !! m with
    | Some l => match a_process G dflt (detect m).2 l (detect m).1 with Ok x => x | _ => ([], [], []) end
    | None => ([], [], []) end : outcome).
  assert (Ho : ∀ m, m ∈ ms → out_ok detect A o m).
  { intros m Hm. destruct (Hms m Hm) as [[nh Hman] Hres]. rewrite (rp_man _ _ _ HR) in Hman.
    destruct (A !! m) as [l|] eqn:E; [|done]. exists l. split_and!; [done|exact (HS _ _ E)|done|].
    destruct (process_seq (detect m).2 m A _ r l (detect m).1 HF HR E (HS _ _ E) Hres) as (? & l' & news & dels & Ha & _).
    unfold o. rewrite E, Ha. done. }
  destruct (seq_fin detect o ms HF A _ r HR Hnd Ho) as (r1 & Hs & HR1).
  destruct (par_fin detect o order ms A _ r HF HR Hnd Hperm Ho) as (r2 & Hp & HR2).
  exists r1. split; [done|]. by rewrite (repr_unique _ _ _ _ HR1 HR2).
Qed.
End reach.
