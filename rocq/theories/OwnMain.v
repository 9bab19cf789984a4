(** Main lemmas about snapshots and create packets of clients. *)
From Verif Require Import Outcome GraphModel GraphSpec GraphHist GraphMain MapModel OwnModel OwnSpec OwnProofs OwnSnap.

(** ** Receiving a snapshot *)
Lemma item_swap_pop ents ps i p t e v :
  ps !! i = Some p → item_in ents (swap_pop ps i) t e v → item_in ents ps t e v.
Proof.
  intros Hi Hin. eapply item_in_perm; [by apply swap_pop_perm|]. apply item_in_cons. by right.
Qed.
Lemma merge_history_sound w ents ps w' ps' :
  merge_action_history w ents ps = Ok (w', ps') →
  same_shape w w' ∧
  (∀ t e, w_comps w' !! (t, e) ≠ w_comps w !! (t, e) → t = THistory ∧ ∃ v, item_in ents ps THistory e v) ∧
  (∀ t e, is_Some (w_comps w' !! (t, e)) ↔ is_Some (w_comps w !! (t, e))) ∧
  (∀ t e v, item_in ents ps' t e v → item_in ents ps t e v).
Proof.
  unfold merge_action_history. destruct (list_find _ ps) as [[i p]|] eqn:Ef.
  - apply list_find_Some in Ef as (Hi & Hp%bool_decide_eq_true & _).
    intros (w1 & H1 & [= <- <-])%bind_ok. apply merge_items_spec in H1 as (Hs & Hc & Hk).
    split_and!; try done.
    + intros t e [-> (k & v & Hin & Hent)]%Hc. split; [done|]. exists v. split; [done|].
      exists p, k. split_and!; try done. by eapply elem_of_list_lookup_2.
    + intros t e v. by eapply item_swap_pop.
  - intros [= <- <-]. split_and!; try done.
Qed.

(** The entities of a snapshot in local terms. *)
Definition local_ents (cl : client) (sn : snapshot) : option (list nat) :=
  mapM (λ r, em_map (cl_map cl) !! r) (sn_ents sn).

Lemma receive_sound s c cl sn s' :
  s_clients s !! c = Some cl → receive_snapshot s c sn = Ok s' →
  s' = s ∨
  ∃ ents q, local_ents cl sn = Some ents ∧
    same_shape (s_world s) (s_world s') ∧
    s_clients s' !! c = Some (Client (cl_map cl) (cl_owned cl) (cl_aoi cl) (cl_full cl) (cl_queue cl ++ q)) ∧
    (∀ c', c' ≠ c → s_clients s' !! c' = s_clients s !! c') ∧
    (∀ t e, w_comps (s_world s') !! (t, e) ≠ w_comps (s_world s) !! (t, e) →
       t = THistory ∧ accepted (s_world s) c THistory e = Ok true) ∧
    (∀ t e, is_Some (w_comps (s_world s') !! (t, e)) ↔ is_Some (w_comps (s_world s) !! (t, e))) ∧
    (∀ sn', sn' ∈ q → sn_ents sn' = ents ∧
       ∀ t e v', item_in ents (sn_pools sn') t e v' →
         accepted (s_world s) c t e = Ok true ∧
         ∃ v, v' = map_child (cl_map cl) t v ∧ item_in ents (sn_pools sn) t e v).
Proof.
  intros Hc. unfold receive_snapshot. rewrite Hc. cbn [opt_res mbind res_bind]. fold (local_ents cl sn).
  destruct (local_ents cl sn) as [ents|]; [|intros [= <-]; by left].
  intros (ps & Hps & H)%bind_ok. apply bind_ok in H as ([w ps'] & Hm & H). right.
  assert (Hsound : ∀ t e v', item_in ents ps t e v' → accepted (s_world s) c t e = Ok true ∧
            ∃ v, v' = map_child (cl_map cl) t v ∧ item_in ents (sn_pools sn) t e v).
  { intros t e v'. eapply transform_pools_sound; [|exact Hps]. intros k b Hk. by rewrite lookup_empty in Hk. }
  destruct (merge_history_sound _ _ _ _ _ Hm) as (Hs & Hch & Hi & Hsub).
  exists ents. destruct ps' as [|p ps'].
  - injection H as <-. exists []. cbn [s_world s_clients]. split_and!; try done.
    + rewrite app_nil_r, Hc. by destruct cl.
    + intros t e [-> (v & Hin)]%Hch. split; [done|]. by destruct (Hsound _ _ _ Hin).
    + intros sn' Hin. by apply elem_of_nil in Hin.
  - injection H as <-. exists [Snapshot ents (p :: ps')]. cbn [put_client s_world s_clients]. split_and!; try done.
    + by rewrite lookup_insert.
    + intros c' Hne. by rewrite lookup_insert_ne.
    + intros t e [-> (v & Hin)]%Hch. split; [done|]. by destruct (Hsound _ _ _ Hin).
    + intros sn' ->%elem_of_list_singleton. cbn [sn_ents sn_pools]. split; [done|]. intros t e v' Hin. by apply Hsound, Hsub.
Qed.

(** A well formed snapshot is received: what is queued is what the client may set. *)
Lemma receive_total s c cl sn m ents :
  wok (s_world s) m → s_clients s !! c = Some cl → local_ents cl sn = Some ents →
  (∀ p kv, p ∈ sn_pools sn → is_empty_type (p_type p) = false → kv ∈ p_items p →
     ∃ e, ents !! kv.1 = Some e ∧
       (e ∈ w_valid (s_world s) → checks_owner (p_type p) = true ∨ ∃ i, stands_for (s_world s) m e i) ∧
       (p_type p = THistory → e ∈ w_valid (s_world s) → owns (s_world s) c e → is_Some (w_comps (s_world s) !! (THistory, e)))) →
  ∃ s' ps', receive_snapshot s c sn = Ok s' ∧
    (∃ cl' q, s_clients s' !! c = Some cl' ∧ cl_queue cl' = cl_queue cl ++ q ∧
       (ps' = [] ∧ q = [] ∨ ps' ≠ [] ∧ q = [Snapshot ents ps'])) ∧
    (∀ t e v', t ≠ THistory → item_in ents ps' t e v' ↔
       allowed (s_world s) m c t e ∧ ∃ v, v' = map_child (cl_map cl) t v ∧ item_in ents (sn_pools sn) t e v).
Proof.
  intros Hw Hc He Hits. unfold receive_snapshot. rewrite Hc. cbn [opt_res mbind res_bind]. fold (local_ents cl sn).
  rewrite He.
  set (q := λ t e, match accepted (s_world s) c t e with Ok b => b | _ => false end).
  assert (Hq : ∀ p kv, p ∈ sn_pools sn → is_empty_type (p_type p) = false → kv ∈ p_items p →
     ∃ e, ents !! kv.1 = Some e ∧ accepted (s_world s) c (p_type p) e = Ok (q (p_type p) e) ∧
       (q (p_type p) e = true ↔ allowed (s_world s) m c (p_type p) e)).
  { intros p kv Hp Hemp Hkv. destruct (Hits p kv Hp Hemp Hkv) as (e & Hent & Hst & _). exists e. split; [done|].
    destruct (accepted_total (s_world s) m c (p_type p) e Hw Hst) as (b & Hb & Hiff). unfold q. rewrite Hb. done. }
  destruct (transform_pools_total (s_world s) c (cl_map cl) ents (sn_pools sn) ∅ q) as (ps & Hps & HF).
  { intros k b Hk. by rewrite lookup_empty in Hk. }
  { intros p kv Hp Hemp Hkv. destruct (Hq p kv Hp Hemp Hkv) as (e & ? & ? & _). eauto. }
  rewrite Hps. cbn [mbind res_bind].
  assert (Hitem : ∀ t e v', item_in ents ps t e v' ↔
     allowed (s_world s) m c t e ∧ ∃ v, v' = map_child (cl_map cl) t v ∧ item_in ents (sn_pools sn) t e v).
  { intros t e v'. split.
    - intros Hin. destruct (transform_pools_sound _ _ _ _ _ _ _ t e v' ltac:(intros k b Hk; by rewrite lookup_empty in Hk) Hps Hin)
        as (Ha & v & -> & Hi). split; [by eapply accepted_sound|eauto].
    - intros (Hal & v & -> & Hemp & p & k & Hp & <- & Hkv & Hent).
      destruct (Hq p (k, v) Hp Hemp Hkv) as (e' & He' & _ & Hiff). cbn [fst] in He'. rewrite Hent in He'. injection He' as <-.
      apply elem_of_list_lookup in Hp as [i Hi].
      destruct (Forall2_lookup_l _ _ _ _ _ HF Hi) as (p' & Hi' & Ht' & Hf). rewrite Hemp in Hf.
      split; [done|]. exists p', k. split_and!; [by eapply elem_of_list_lookup_2|done| |done].
      rewrite Hf. apply elem_of_list_fmap. exists (k, v). split; [done|]. apply elem_of_list_filter. split; [|done].
      cbn [fst]. rewrite Hent. cbn [from_option]. by apply Hiff. }
  assert (Hm : ∃ w' ps', merge_action_history (s_world s) ents ps = Ok (w', ps') ∧
     ∀ t e v, t ≠ THistory → item_in ents ps' t e v ↔ item_in ents ps t e v).
  { unfold merge_action_history. destruct (list_find _ ps) as [[i p]|] eqn:Ef.
    - apply list_find_Some in Ef as (Hi & Hp%bool_decide_eq_true & _).
      destruct (merge_items_total ents (p_items p) (s_world s)) as [w' Hw'].
      { intros k v Hkv. apply elem_of_list_lookup_2 in Hi as Hin.
        destruct (Forall2_lookup_r _ _ _ _ _ HF Hi) as (p0 & Hi0 & Ht0 & Hf). rewrite Hp in Ht0.
        rewrite <- Ht0 in Hf. cbn [is_empty_type] in Hf. rewrite Hf in Hkv.
        apply elem_of_list_fmap in Hkv as ([k0 v0] & Heq & Hkv). injection Heq as -> ->.
        apply elem_of_list_filter in Hkv as [Hq0 Hkv]. apply elem_of_list_lookup_2 in Hi0.
        destruct (Hits p0 (k0, v0) Hi0) as (e & Hent & _ & Hh); [by rewrite <- Ht0|done|]. cbn [fst] in *.
        exists e. split; [done|]. intros _. destruct (Hq p0 (k0, v0) Hi0) as (e' & Hent' & _ & Hiff); [by rewrite <- Ht0|done|].
        cbn [fst] in Hent'. rewrite Hent in Hent'. injection Hent' as <-. rewrite Hent in Hq0. cbn [from_option] in Hq0.
        rewrite <- Ht0 in Hiff, Hh. apply Hiff in Hq0 as [Hv Ho]. auto. }
      rewrite Hw'. cbn [mbind res_bind]. eexists _, _. split; [done|].
      intros t e v Hne. split; [by eapply item_swap_pop|].
      intros Hin. apply (item_in_perm ents _ _ t e v (swap_pop_perm ps i p Hi)), item_in_cons in Hin as [(_ & ? & _)|?]; [congruence|done].
    - eexists _, _. split; [done|]. done. }
  destruct Hm as (w' & ps' & -> & Hm). cbn [mbind res_bind].
  assert (Hfin : ∀ t e v', t ≠ THistory → item_in ents ps' t e v' ↔
       allowed (s_world s) m c t e ∧ ∃ v, v' = map_child (cl_map cl) t v ∧ item_in ents (sn_pools sn) t e v).
  { intros t e v' Hne. by rewrite Hm, Hitem. }
  destruct ps' as [|p ps'].
  - eexists _, []. split; [done|]. split; [|done]. exists cl, []. rewrite app_nil_r. split_and!; try done. by left.
  - eexists _, (p :: ps'). split; [done|]. split; [|done]. eexists _, [_]. cbn [put_client s_clients]. rewrite lookup_insert.
    split_and!; [done|done|]. by right.
Qed.

(** ** Receiving and applying *)
Lemma apply_sound s c cl sn q s' :
  s_clients s !! c = Some cl → cl_queue cl = sn :: q → apply_front s c = Ok s' →
  same_shape (s_world s) (s_world s') ∧
  (∀ t e, w_comps (s_world s') !! (t, e) ≠ w_comps (s_world s) !! (t, e) →
     e ∈ w_valid (s_world s) ∧ ∃ v, item_in (sn_ents sn) (sn_pools sn) t e v ∧ w_comps (s_world s') !! (t, e) = Some v) ∧
  (∀ t e, is_Some (w_comps (s_world s') !! (t, e)) ↔ is_Some (w_comps (s_world s) !! (t, e))) ∧
  (∀ t e v, item_in (sn_ents sn) (sn_pools sn) t e v → e ∈ w_valid (s_world s) → is_Some (w_comps (s_world s) !! (t, e)) →
     ∃ v', item_in (sn_ents sn) (sn_pools sn) t e v' ∧ w_comps (s_world s') !! (t, e) = Some v') ∧
  s_clients s' = <[c := Client (cl_map cl) (cl_owned cl) (cl_aoi cl) (cl_full cl) q]> (s_clients s).
Proof.
  intros Hc Hq. unfold apply_front. rewrite Hc. cbn [opt_res mbind res_bind]. rewrite Hq.
  intros (w & Hw & [= <-])%bind_ok. cbn [put_client s_world s_clients].
  apply replace_pools_spec in Hw as (Hs & Hch & Hi & Ht). split_and!; try done.
  intros t e Hne. destruct (Hch t e) as [?|(? & _ & v & ? & ?)]; [done|]. eauto.
Qed.

Lemma snapshot_effect s c cl sn m s1 s2 :
  wok (s_world s) m → s_clients s !! c = Some cl → cl_queue cl = [] →
  receive_snapshot s c sn = Ok s1 → apply_front s1 c = Ok s2 →
  same_shape (s_world s) (s_world s2) ∧
  (∀ t e, w_comps (s_world s2) !! (t, e) ≠ w_comps (s_world s) !! (t, e) → allowed (s_world s) m c t e).
Proof.
  intros Hw Hc Hq Hr Ha. destruct (receive_sound _ _ _ _ _ Hc Hr) as [->|(ents & q & Hents & Hs & Hc1 & _ & Hch & _ & Hqs)].
  - unfold apply_front in Ha. rewrite Hc in Ha. cbn [opt_res mbind res_bind] in Ha. rewrite Hq in Ha.
    injection Ha as <-. done.
  - rewrite Hq in Hc1. cbn [app] in Hc1.
    assert (Hfirst : ∀ t e, w_comps (s_world s1) !! (t, e) ≠ w_comps (s_world s) !! (t, e) → allowed (s_world s) m c t e).
    { intros t e [-> Hacc]%Hch. by eapply accepted_sound. }
    destruct q as [|sn' q].
    + unfold apply_front in Ha. rewrite Hc1 in Ha. injection Ha as <-. done.
    + destruct (apply_sound _ _ _ _ _ _ Hc1 eq_refl Ha) as (Hs2 & Hch2 & _).
      split; [by eapply same_shape_trans|]. intros t e Hne.
      destruct (decide (w_comps (s_world s2) !! (t, e) = w_comps (s_world s1) !! (t, e))) as [Heq|Hd].
      * rewrite Heq in Hne. auto.
      * destruct (Hch2 _ _ Hd) as (_ & v & Hin & _). destruct (Hqs sn') as [Hent Hitems]; [left|].
        rewrite Hent in Hin. destruct (Hitems _ _ _ Hin) as [Hacc _]. by eapply accepted_sound.
Qed.

(** A body of another client is out of reach. *)
Lemma foreign_body w m c c' e i t : wok w m → is_node m i e → owns w c' e → c' ≠ c → ¬ allowed w m c t e.
Proof.
  intros Hw Hi Ho Hne [Hv Ha].
  assert (Ho' : ¬ owns w c e). { intros (r & Hr). destruct Ho as (r' & Hr'). congruence. }
  assert (Hon : ¬ only_client w m e c).
  { intros [_ Hall]. apply Hne, Hall. exists i, i, e. split_and!; [by apply sf_node|constructor|done|done]. }
  destruct t; done.
Qed.

(** ** Histories *)
(** Where the entries waiting in the queues come from. *)
Definition from_snapshot (s0 : server) (os : list sop) (c : nat) (t : ctype) (e : nat) : Prop :=
  ∃ os1 sn os2 s1, os = os1 ++ OpSnapshot c sn :: os2 ∧ srun s0 os1 = Ok s1 ∧ accepted (s_world s1) c t e = Ok true.

Lemma srun_snoc s os o s' : srun s (os ++ [o]) = Ok s' ↔ ∃ s1, srun s os = Ok s1 ∧ sstep s1 o = Ok s'.
Proof. unfold srun. rewrite foldl_app. cbn [foldl]. apply bind_ok. Qed.
Lemma from_snapshot_mono s0 os o c t e : from_snapshot s0 os c t e → from_snapshot s0 (os ++ [o]) c t e.
Proof.
  intros (os1 & sn & os2 & s1 & -> & H1 & H2). exists os1, sn, (os2 ++ [o]), s1. split_and!; try done.
  by rewrite <- app_assoc.
Qed.

Lemma foldl_destroy_queue c rs w cl w' cl' :
  foldl (destroy_one c) (Ok (w, cl)) rs = Ok (w', cl') → cl_queue cl' = cl_queue cl.
Proof.
  revert w cl. induction rs as [|r rs IH]; intros w cl; [by intros [= <- <-]|].
  intros ([w1 cl1] & H1 & H2)%foldl_ok_cons; [|done]. rewrite (IH _ _ H2). clear H2.
  cbn [destroy_one mbind res_bind] in H1. destruct (em_map (cl_map cl) !! r); [|by injection H1 as <- <-].
  destruct (_ && _); [|by injection H1 as <- <-]. apply bind_ok in H1 as (w2 & _ & H1).
  apply bind_ok in H1 as (m2 & _ & H1). apply bind_ok in H1 as (u & _ & H1). by injection H1 as <- <-.
Qed.
Lemma foldl_create_queue c rs w cl w' cl' :
  foldl (create_one c) (Ok (w, cl)) rs = Ok (w', cl') → cl_queue cl' = cl_queue cl.
Proof.
  revert w cl. induction rs as [|r rs IH]; intros w cl; [by intros [= <- <-]|].
  intros ([w1 cl1] & H1 & H2)%foldl_ok_cons; [|done]. rewrite (IH _ _ H2). clear H2.
  cbn [create_one mbind res_bind] in H1. destruct (em_contains _ _); [by injection H1 as <- <-|].
  destruct (w_create w) as [w2 e]. apply bind_ok in H1 as (w3 & _ & H1).
  apply bind_ok in H1 as (m2 & _ & H1). by injection H1 as <- <-.
Qed.

(** The queue of every client after one step. *)
Lemma sstep_queue s o s' c cl' sn :
  sstep s o = Ok s' → s_clients s' !! c = Some cl' → sn ∈ cl_queue cl' →
  (∃ cl, s_clients s !! c = Some cl ∧ sn ∈ cl_queue cl) ∨
  (∃ sn0, o = OpSnapshot c sn0 ∧ ∀ t e v, item_in (sn_ents sn) (sn_pools sn) t e v → accepted (s_world s) c t e = Ok true).
Proof.
  assert (Hput : ∀ c0 w cl0 cl1, s_clients s !! c0 = Some cl1 → cl_queue cl0 = cl_queue cl1 →
     s_clients (put_client s c0 w cl0) !! c = Some cl' → sn ∈ cl_queue cl' →
     ∃ cl, s_clients s !! c = Some cl ∧ sn ∈ cl_queue cl).
  { intros c0 w cl0 cl1 H0 Hq H1 Hin. cbn [put_client s_clients] in H1.
    apply lookup_insert_Some in H1 as [[<- <-]|[_ H1]]; [|eauto]. exists cl1. split; [done|]. by rewrite <- Hq. }
  destruct o as [c0 sn0|c0 rs|c0 ps|c0 sn0|c0|c0]; cbn [sstep].
  - unfold process_create. intros (cl & Hcl & H)%bind_ok. destruct (s_clients s !! c0) as [cl0|] eqn:Ec; [|done].
    injection Hcl as ->. apply bind_ok in H as ([w1 cl1] & H1 & H). apply bind_ok in H as ([w2 m2] & _ & H).
    apply bind_ok in H as (w3 & _ & H). apply bind_ok in H as (w4 & _ & [= <-]). intros H2 H3. left.
    eapply Hput; [exact Ec| |exact H2|exact H3]. cbn [set_map cl_queue]. by eapply foldl_create_queue.
  - unfold process_destroy. intros (cl & Hcl & H)%bind_ok. destruct (s_clients s !! c0) as [cl0|] eqn:Ec; [|done].
    injection Hcl as ->. apply bind_ok in H as ([w1 cl1] & H1 & [= <-]). intros H2 H3. left.
    eapply Hput; [exact Ec| |exact H2|exact H3]. by eapply foldl_destroy_queue.
  - unfold process_update_map. intros (cl & Hcl & H)%bind_ok. destruct (s_clients s !! c0) as [cl0|] eqn:Ec; [|done].
    injection Hcl as ->. apply bind_ok in H as (m1 & H1 & [= <-]). intros H2 H3. left.
    eapply Hput; [exact Ec| |exact H2|exact H3]. done.
  - intros Hr Hcl' Hin. destruct (s_clients s !! c0) as [cl0|] eqn:Ec.
    2: { unfold receive_snapshot in Hr. rewrite Ec in Hr. done. }
    destruct (receive_sound _ _ _ _ _ Ec Hr) as [->|(ents & q & _ & _ & Hc1 & Hoth & _ & _ & Hqs)]; [left; eauto|].
    destruct (decide (c = c0)) as [->|Hne].
    + rewrite Hc1 in Hcl'. injection Hcl' as <-. cbn [cl_queue] in Hin. apply elem_of_app in Hin as [Hin|Hin]; [left; eauto|].
      right. exists sn0. split; [done|]. destruct (Hqs _ Hin) as [-> Hi]. intros t e v Hit. by destruct (Hi _ _ _ Hit).
    + rewrite Hoth in Hcl' by done. left. eauto.
  - unfold apply_front. intros (cl & Hcl & H)%bind_ok. destruct (s_clients s !! c0) as [cl0|] eqn:Ec; [|done].
    injection Hcl as ->. intros H2 H3. left. destruct (cl_queue cl) as [|x q] eqn:Eq; [injection H as <-; eauto|].
    apply bind_ok in H as (w1 & _ & [= <-]). cbn [put_client s_clients] in H2.
    apply lookup_insert_Some in H2 as [[<- <-]|[_ H2]]; [|eauto]. exists cl. split; [done|]. rewrite Eq. by right.
  - unfold destroy_client. intros (cl & Hcl & H)%bind_ok. apply bind_ok in H as (w1 & _ & H).
    apply bind_ok in H as (w2 & _ & [= <-]). cbn [s_clients]. intros [_ H2]%lookup_delete_Some H3. left. eauto.
Qed.

Lemma queue_provenance s0 os s c cl sn t e v :
  (∀ c cl, s_clients s0 !! c = Some cl → cl_queue cl = []) →
  srun s0 os = Ok s → s_clients s !! c = Some cl → sn ∈ cl_queue cl →
  item_in (sn_ents sn) (sn_pools sn) t e v → from_snapshot s0 os c t e.
Proof.
  intros Hinit. revert s cl. induction os as [|o os IH] using rev_ind; intros s cl Hr Hc Hin Hi.
  - injection Hr as ->. rewrite (Hinit _ _ Hc) in Hin. by apply elem_of_nil in Hin.
  - apply srun_snoc in Hr as (s1 & Hr & Hst).
    destruct (sstep_queue _ _ _ _ _ _ Hst Hc Hin) as [(cl1 & Hc1 & Hin1)|(sn0 & -> & Hacc)].
    + apply from_snapshot_mono. by eapply IH.
    + exists os, sn0, [], s1. split_and!; try done. by eapply Hacc.
Qed.

(** Every value a snapshot sets was accepted when the snapshot came in. *)
Lemma history_main s0 os s c s' t e :
  (∀ c cl, s_clients s0 !! c = Some cl → cl_queue cl = []) →
  srun s0 os = Ok s → sstep s (OpApply c) = Ok s' →
  w_comps (s_world s') !! (t, e) ≠ w_comps (s_world s) !! (t, e) →
  ∃ os1 sn os2 s1, os = os1 ++ OpSnapshot c sn :: os2 ∧ srun s0 os1 = Ok s1 ∧
    ∀ m1, wok (s_world s1) m1 → allowed (s_world s1) m1 c t e.
Proof.
  intros Hinit Hr Ha Hne. cbn [sstep] in Ha.
  destruct (s_clients s !! c) as [cl|] eqn:Ec.
  2: { unfold apply_front in Ha. rewrite Ec in Ha. done. }
  destruct (cl_queue cl) as [|sn q] eqn:Eq.
  { unfold apply_front in Ha. rewrite Ec in Ha. cbn [opt_res mbind res_bind] in Ha. rewrite Eq in Ha. by injection Ha as <-. }
  destruct (apply_sound _ _ _ _ _ _ Ec Eq Ha) as (_ & Hch & _). destruct (Hch _ _ Hne) as (_ & v & Hi & _).
  destruct (queue_provenance s0 os s c cl sn t e v Hinit Hr Ec) as (os1 & sn0 & os2 & s1 & -> & H1 & H2); [|done|].
  { rewrite Eq. left. }
  exists os1, sn0, os2, s1. split_and!; try done. intros m1 Hm1. by eapply accepted_sound.
Qed.

(** ** Create packets *)
(** Everything known about entity [e] is the same in both worlds. *)
Definition kept (w w' : world) (e : nat) : Prop :=
  (∀ t, w_comps w' !! (t, e) = w_comps w !! (t, e)) ∧
  (e ∈ w_valid w' ↔ e ∈ w_valid w) ∧ w_node w' !! e = w_node w !! e ∧ w_edge w' !! e = w_edge w !! e.
Lemma kept_refl w e : kept w w e.
Proof. done. Qed.
Lemma kept_trans w1 w2 w3 e : kept w1 w2 e → kept w2 w3 e → kept w1 w3 e.
Proof.
  intros (H1 & H2 & H3 & H4) (G1 & G2 & G3 & G4). split_and!; [|by rewrite G2|congruence|congruence].
  intros t. by rewrite G1.
Qed.
Lemma emplace_kept w t e v w' x : w_emplace w t e v = Ok w' → x ≠ e → kept w w' x.
Proof.
  unfold w_emplace. intros (u & _ & [= <-])%bind_ok Hne. split_and!; try done.
  intros t'. cbn [w_comps]. rewrite lookup_insert_ne; [done|congruence].
Qed.
Lemma patch_kept w t e v w' x : w_patch w t e v = Ok w' → x ≠ e → kept w w' x.
Proof.
  unfold w_patch. intros (u & _ & [= <-])%bind_ok Hne. split_and!; try done.
  intros t'. cbn [w_comps]. rewrite lookup_insert_ne; [done|congruence].
Qed.
Lemma emplace_next w t e v w' : w_emplace w t e v = Ok w' → w_next w' = w_next w.
Proof. unfold w_emplace. by intros (u & _ & [= <-])%bind_ok. Qed.

Lemma create_fold_kept c rs w cl w' cl' x :
  x < w_next w → (∀ r, r ∈ rs → em_map (cl_map cl) !! r ≠ Some x) →
  foldl (create_one c) (Ok (w, cl)) rs = Ok (w', cl') →
  kept w w' x ∧ (∀ r, r ∈ rs → em_map (cl_map cl') !! r ≠ Some x).
Proof.
  cut (∀ all : list nat, (∀ r, r ∈ rs → r ∈ all) → x < w_next w → (∀ r, r ∈ all → em_map (cl_map cl) !! r ≠ Some x) →
     foldl (create_one c) (Ok (w, cl)) rs = Ok (w', cl') →
     kept w w' x ∧ (∀ r, r ∈ all → em_map (cl_map cl') !! r ≠ Some x)).
  { intros Hcut Hx Hrs Hf. by apply (Hcut rs). }
  intros all. revert w cl. induction rs as [|r rs IH]; intros w cl Hall Hx Hm.
  { intros [= <- <-]. split; [apply kept_refl|done]. }
  intros ([w1 cl1] & H1 & H2)%foldl_ok_cons; [|done].
  assert (Hone : kept w w1 x ∧ x < w_next w1 ∧ ∀ r, r ∈ all → em_map (cl_map cl1) !! r ≠ Some x).
  { cbn [create_one mbind res_bind] in H1. destruct (em_contains _ _); [injection H1 as <- <-; split; [apply kept_refl|done]|].
    destruct (w_create w) as [w2 e] eqn:Ew. injection Ew as <- <-. apply bind_ok in H1 as (w3 & He & H1).
    apply bind_ok in H1 as (m2 & Hm2 & [= <- <-]). split_and!.
    - eapply kept_trans; [|eapply emplace_kept; [exact He|lia]]. split_and!; try done. cbn [w_valid]. set_solver by lia.
    - rewrite (emplace_next _ _ _ _ _ He). cbn [w_next]. lia.
    - unfold em_insert in Hm2. apply bind_ok in Hm2 as (u1 & _ & Hm2). apply bind_ok in Hm2 as (u2 & _ & [= <-]).
      intros r' Hr'. cbn [cl_map em_map]. intros [[_ ?]|[_ Hr2]]%lookup_insert_Some; [lia|]. by eapply Hm. }
  destruct Hone as (Hk & Hx1 & Hm1). destruct (IH w1 cl1) as [Hk2 Hm2]; [|done|done|done|].
  { intros r' Hr'. apply Hall. by right. }
  split; [by eapply kept_trans|done].
Qed.

Lemma import_items_kept t ents l w m w' m' x :
  (∀ r, r ∈ ents → em_map m !! r ≠ Some x) →
  foldl (import_item t ents) (Ok (w, m)) l = Ok (w', m') →
  kept w w' x ∧ (∀ r, r ∈ ents → em_map m' !! r ≠ Some x).
Proof.
  revert w m. induction l as [|[k v] l IH]; intros w m Hm.
  { intros [= <- <-]. split; [apply kept_refl|done]. }
  intros ([w1 m1] & H1 & H2)%foldl_ok_cons; [|done].
  assert (Hone : kept w w1 x ∧ ∀ r, r ∈ ents → em_map m1 !! r ≠ Some x).
  { cbn [import_item mbind res_bind fst snd] in H1. apply bind_ok in H1 as (r & Hr & H1).
    destruct (ents !! k) as [r'|] eqn:Ek; [|done]. injection Hr as ->. apply elem_of_list_lookup_2 in Ek.
    destruct (em_map m !! r) as [e|] eqn:Er; [|injection H1 as <- <-; split; [apply kept_refl|done]].
    assert (Hne : x ≠ e). { intros ->. by eapply Hm. }
    destruct (negb _).
    { apply bind_ok in H1 as (m2 & Hm2 & [= <- <-]). split; [apply kept_refl|]. unfold em_erase in Hm2.
      apply bind_ok in Hm2 as (u & _ & [= <-]). cbn [em_map]. intros r0 Hr0 [_ Hr1]%lookup_delete_Some. by eapply Hm. }
    destruct (is_empty_type t).
    { destruct (w_has w t e); [injection H1 as <- <-; split; [apply kept_refl|done]|].
      apply bind_ok in H1 as (w2 & Hw2 & [= <- <-]). split; [by eapply emplace_kept|done]. }
    apply bind_ok in H1 as (w2 & Hw2 & [= <- <-]). split; [|done].
    destruct (w_has w t e); [by eapply patch_kept|by eapply emplace_kept]. }
  destruct Hone as [Hk Hm1]. destruct (IH w1 m1 Hm1 H2) as [Hk2 Hm2]. split; [by eapply kept_trans|done].
Qed.
Lemma import_pools_kept ents ps w m w' m' x :
  (∀ r, r ∈ ents → em_map m !! r ≠ Some x) →
  import_pools ents w m ps = Ok (w', m') →
  kept w w' x ∧ (∀ r, r ∈ ents → em_map m' !! r ≠ Some x).
Proof.
  unfold import_pools. revert w m. induction ps as [|p ps IH]; intros w m Hm.
  { intros [= <- <-]. split; [apply kept_refl|done]. }
  intros ([w1 m1] & H1 & H2)%foldl_ok_cons.
  - destruct (import_items_kept _ _ _ _ _ _ _ _ Hm H1) as [Hk Hm1]. destruct (IH w1 m1 Hm1 H2) as [Hk2 Hm2].
    split; [by eapply kept_trans|done].
  - intros q. assert (Hf : ∀ (r : res (world * emap)) l, (∀ x, r ≠ Ok x) → foldl (import_item (p_type q) ents) r l = r).
    { intros r l Hr. induction l as [|y l IHl] using rev_ind; [done|]. rewrite foldl_app, IHl. cbn [foldl]. destruct r; try done. by destruct (Hr a). }
    split_and!; by apply Hf.
Qed.

Lemma derive_kept w a b e w' x : derive w a b e = Ok w' → x ≠ e → kept w w' x.
Proof.
  unfold derive. destruct (w_has w a e); [apply emplace_kept|]. intros [= <-] _. apply kept_refl.
Qed.
Lemma finish_kept m rs w w' x :
  (∀ r, r ∈ rs → em_map m !! r ≠ Some x) → foldl (finish_one m) (Ok w) rs = Ok w' → kept w w' x.
Proof.
  revert w. induction rs as [|r rs IH]; intros w Hm; [intros [= <-]; apply kept_refl|].
  intros (w1 & H1 & H2)%foldl_ok_cons; [|done].
  eapply kept_trans; [|eapply IH; [|exact H2]; intros; apply Hm; by right]. clear H2 IH.
  cbn [finish_one mbind res_bind] in H1. apply bind_ok in H1 as (e & He & H1).
  assert (Hne : x ≠ e). { intros ->. unfold em_at in He. destruct (em_map m !! r) eqn:Er; [|done]. injection He as ->. eapply Hm; [left|done]. }
  apply bind_ok in H1 as (wa & Ha & H1). apply bind_ok in H1 as (wb & Hb & H1). apply bind_ok in H1 as (wc & Hc & H1).
  apply bind_ok in H1 as (wd & Hd & H1).
  eapply kept_trans; [by eapply derive_kept|]. eapply kept_trans; [by eapply derive_kept|].
  eapply kept_trans; [by eapply derive_kept|]. eapply kept_trans.
  { instantiate (1 := wd). destruct (w_has wc (TTag 0) e); [injection Hd as <-; apply kept_refl|by eapply emplace_kept]. }
  destruct (_ && _); [|injection H1 as <-; apply kept_refl].
  apply bind_ok in H1 as ([g i] & _ & [= <-]). split_and!; try done. cbn [w_node]. by rewrite lookup_insert_ne.
Qed.
Lemma edges_kept m rs w w' x :
  (∀ r, r ∈ rs → em_map m !! r ≠ Some x) → foldl (edge_one m) (Ok w) rs = Ok w' → kept w w' x.
Proof.
  revert w. induction rs as [|r rs IH]; intros w Hm; [intros [= <-]; apply kept_refl|].
  intros (w1 & H1 & H2)%foldl_ok_cons; [|done].
  eapply kept_trans; [|eapply IH; [|exact H2]; intros; apply Hm; by right]. clear H2 IH.
  cbn [edge_one mbind res_bind] in H1. apply bind_ok in H1 as (e & He & H1).
  assert (Hne : x ≠ e). { intros ->. unfold em_at in He. destruct (em_map m !! r) eqn:Er; [|done]. injection He as ->. eapply Hm; [left|done]. }
  destruct (w_comps w !! (TCon, e)) as [v|]; [|injection H1 as <-; apply kept_refl].
  destruct (bool_decide _); [injection H1 as <-; apply kept_refl|].
  destruct v as [|[a|] [|[b|] v]]; try done. apply bind_ok in H1 as (i & _ & H1). apply bind_ok in H1 as (j & _ & H1).
  apply bind_ok in H1 as ([g k] & _ & [= <-]). split_and!; try done. cbn [w_edge]. by rewrite lookup_insert_ne.
Qed.

(** A create packet leaves alone what it does not name. *)
Lemma create_main s c cl sn s' e :
  s_clients s !! c = Some cl → process_create s c sn = Ok s' →
  e < w_next (s_world s) → (∀ r, r ∈ sn_ents sn → em_map (cl_map cl) !! r ≠ Some e) →
  kept (s_world s) (s_world s') e.
Proof.
  intros Hc. unfold process_create. rewrite Hc. cbn [opt_res mbind res_bind]. intros H He Hm.
  apply bind_ok in H as ([w1 cl1] & H1 & H). apply bind_ok in H as ([w2 m2] & H2 & H).
  apply bind_ok in H as (w3 & H3 & H). apply bind_ok in H as (w4 & H4 & [= <-]). cbn [put_client s_world].
  destruct (create_fold_kept _ _ _ _ _ _ _ He Hm H1) as [K1 M1].
  destruct (import_pools_kept _ _ _ _ _ _ _ M1 H2) as [K2 M2].
  eapply kept_trans; [exact K1|]. eapply kept_trans; [exact K2|].
  eapply kept_trans; [by eapply finish_kept|by eapply edges_kept].
Qed.

(** An update of the entity map adds the pairs whose entity exists, and nothing else. *)
Lemma update_map_main s c ps s' :
  process_update_map s c ps = Ok s' →
  ∃ cl cl', s_clients s !! c = Some cl ∧ s_clients s' = <[c := cl']> (s_clients s) ∧
    s_world s' = s_world s ∧ cl_owned cl' = cl_owned cl ∧ cl_queue cl' = cl_queue cl ∧
    (∀ r e, em_map (cl_map cl') !! r = Some e ↔
       em_map (cl_map cl) !! r = Some e ∨ (e, r) ∈ ps ∧ e ∈ w_valid (s_world s)).
Proof.
  unfold process_update_map. intros (cl & Hcl & H)%bind_ok. destruct (s_clients s !! c) as [cl0|] eqn:Ec; [|done].
  injection Hcl as ->. apply bind_ok in H as (m & Hm & [= <-]).
  exists cl, (set_map cl m). split; [done|]. split; [done|]. split; [done|]. split; [done|]. split; [done|].
  cbn [set_map cl_map]. revert Hm. generalize (cl_map cl) as m0. clear Ec.
  induction ps as [|[e0 r0] ps IH]; intros m0 Hm r e.
  - simpl in Hm. injection Hm as ->. split; [by left|]. intros [H|[H _]]; [done|]. by apply elem_of_nil in H.
  - cbn [foldl mbind res_bind fst snd] in Hm. destruct (bool_decide _) eqn:Ev.
    + apply bool_decide_eq_true in Ev. destruct (em_insert m0 r0 e0) as [m1| | |] eqn:Ei.
      2-4: exfalso; clear - Hm; induction ps as [|p ps IH]; [done|]; simpl in Hm; auto.
      rewrite (IH m1 Hm). unfold em_insert in Ei. apply bind_ok in Ei as (u1 & H1 & Ei). apply bind_ok in Ei as (u2 & _ & [= <-]).
      cbn [em_map]. unfold assert_ in H1. destruct (bool_decide (em_map m0 !! r0 = None)) eqn:En; [|done]. apply bool_decide_eq_true in En.
      rewrite elem_of_cons. destruct (decide (r0 = r)) as [->|Hr].
      * rewrite lookup_insert. split.
        -- intros [[= ->]|H]; [right; split; [by left|done]|right; tauto].
        -- intros [H|[[[= ->]|H] Hv]]; [congruence|by left|right; done].
      * rewrite lookup_insert_ne by done. split; [tauto|]. intros [H|[[[= -> ->]|H] Hv]]; tauto.
    + apply bool_decide_eq_false in Ev. rewrite (IH m0 Hm), elem_of_cons. split; [tauto|].
      intros [H|[[[= -> ->]|H] Hv]]; tauto.
Qed.
