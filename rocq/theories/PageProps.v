(** C36: the page cache of a paged triangle mesh. *)
From Verif Require Import PageModel PageProofs.

(** Everything below is about a mesh as created in memory or read from a file,
    after any history of visits, completed loads and cache clearings with at
    most [k] loads in flight when a page is visited. *)

(** No operation fails: eviction ends, and every page is on the recency list. *)
Theorem C36_total : ∀ k all sizes max es m o,
  phist k (pm_new all sizes max) es m → legal k m o → ∃ m' e, pstep m o = Ok (m', e).
Proof.
  intros k all sizes max es m o H Hl. destruct (pm_new_inv all sizes max) as [I B].
  destruct (phist_main _ _ _ _ I B H) as (Hi & _). destruct (pstep_main k m o Hi Hl) as (m' & e & E & _). by exists m', e.
Qed.
Print Assumptions C36_total.

Lemma total_new_false sizes max : total (pm_new false sizes max) = 0.
Proof. unfold total. cbn. induction sizes as [|n l IH]; [done|]. exact IH. Qed.
Lemma cache_le_total m : pinv m → cache_num_vertices m ≤ total m.
Proof. intros [_ H]. unfold total. rewrite total_split by done. unfold cache_num_vertices. lia. Qed.
Lemma all_fit_new all sizes max : Forall (λ n, n < max) sizes → all_fit (pm_new all sizes max).
Proof. intros H. unfold all_fit. cbn. apply Forall_fmap. eapply Forall_impl; [exact H|]. done. Qed.

(** A mesh read from a file never holds more vertices than the limit times one
    plus the number of loads in flight at any visit, counting those still being
    loaded. *)
Theorem C36_limit : ∀ k sizes max es m,
  Forall (λ n, n < max) sizes → phist k (pm_new false sizes max) es m →
  cache_num_vertices m ≤ total m ∧ total m ≤ S k * max.
Proof.
  intros k sizes max es m Hf H. destruct (pm_new_inv false sizes max) as [I B].
  destruct (phist_main _ _ _ _ I B H) as (Hi & _ & _ & _ & HT & _).
  split; [by apply cache_le_total|]. apply HT; [by apply all_fit_new|]. rewrite total_new_false. lia.
Qed.
Print Assumptions C36_limit.

(** With a loader which finishes before it returns this is the limit itself,
    whatever is visited. *)
Inductive sync_op (n : nat) : pop → Prop :=
| sync_visit i : i < n → sync_op n (Visit i true)
| sync_clear : sync_op n ClearCache.
Lemma in_flight_0 m : in_flight m = 0 ↔ ∀ i, loading m i = false.
Proof.
  unfold in_flight, loading. split.
  - intros H i. destruct (pm_pages m !! i) as [p|] eqn:Hp; [|done]. apply nil_length_inv in H.
    apply elem_of_list_lookup_2 in Hp. destruct (pg_loading p) eqn:E; [|done].
    assert (Hin : p ∈ filter (λ p, pg_loading p = true) (pm_pages m)) by (by apply elem_of_list_filter). rewrite H in Hin.
    by apply elem_of_nil in Hin.
  - intros H. assert (HE : filter (λ p, pg_loading p = true) (pm_pages m) = []); [|by rewrite HE].
    apply elem_of_nil_inv. intros p [Hl Hp]%elem_of_list_filter. apply elem_of_list_lookup in Hp as [i Hi].
    specialize (H i). rewrite Hi in H. congruence.
Qed.
Lemma sync_flight m o m' e : pinv m → all_fit m → in_flight m = 0 → sync_op (length (pm_pages m)) o → pstep m o = Ok (m', e) → in_flight m' = 0.
Proof.
  intros Hi Hf H0 Ho Hs. rewrite in_flight_0 in H0. apply in_flight_0. intros j. destruct Ho as [i Hlt|]; cbn [pstep] in Hs.
  - destruct (lookup_lt_is_Some_2 _ _ Hlt) as [p Hp]. unfold all_fit in Hf. rewrite Forall_lookup in Hf.
    destruct (visit_main m i p true Hi Hp (Hf i p Hp)) as (m1 & es & e1 & m2 & E & L & _ & Hpg & _).
    rewrite E in Hs. injection Hs as <- <-. unfold loading. rewrite Hpg. fold (loading m1 j).
    destruct (decide (j = i)) as [->|Hj].
    + rewrite (ls_loading _ _ _ _ _ _ _ L). specialize (H0 i). unfold loading in H0. rewrite Hp in H0. rewrite H0.
      by rewrite andb_false_r.
    + unfold loading. destruct (pm_pages m1 !! j) as [q'|] eqn:Hq'; [|done].
      assert (Hjl : j < length (pm_pages m)) by (rewrite <- (ls_len _ _ _ _ _ _ _ L); by eapply lookup_lt_Some).
      destruct (lookup_lt_is_Some_2 _ _ Hjl) as [q Hq]. destruct (ls_pages _ _ _ _ _ _ _ L j q Hq) as (q2 & Hq2 & _ & Hld).
      rewrite Hq' in Hq2. injection Hq2 as <-. rewrite (Hld Hj). specialize (H0 j). unfold loading in H0. by rewrite Hq in H0.
  - injection Hs as <- <-. specialize (H0 j). unfold loading, clear_cache in *. cbn [set_pages pm_pages] in *.
    rewrite list_lookup_fmap. by destruct (pm_pages m !! j).
Qed.
Theorem C36_limit_sync : ∀ sizes max os,
  Forall (λ n, n < max) sizes → Forall (sync_op (length sizes)) os →
  ∃ m es, prun (pm_new false sizes max) os = Ok (m, es) ∧ cache_num_vertices m ≤ max ∧ in_flight m = 0.
Proof.
  intros sizes max os Hf Hos. destruct (pm_new_inv false sizes max) as [I _].
  pose proof (all_fit_new false sizes max Hf) as AF.
  assert (H0 : in_flight (pm_new false sizes max) = 0).
  { apply in_flight_0. intros i. unfold loading. cbn. rewrite list_lookup_fmap. by destruct (sizes !! i). }
  assert (HT : total (pm_new false sizes max) ≤ 1 * max) by (rewrite total_new_false; lia).
  assert (Hlen : length (pm_pages (pm_new false sizes max)) = length sizes) by (cbn; by rewrite fmap_length).
  assert (Hmax : pm_max (pm_new false sizes max) = max) by done.
  revert I AF H0 HT Hlen Hmax. generalize (pm_new false sizes max). clear Hf.
  induction Hos as [|o os Ho _ IH]; intros m I AF H0 HT Hlen Hmax; cbn [prun].
  - exists m, []. split; [done|]. split; [|done]. pose proof (cache_le_total m I). lia.
  - assert (Hleg : legal 0 m o).
    { destruct Ho as [i Hlt|]; [|done]. rewrite <- Hlen in Hlt. destruct (lookup_lt_is_Some_2 _ _ Hlt) as [p Hp].
      split; [|lia]. exists p. split; [done|]. unfold all_fit in AF. rewrite Forall_lookup in AF. by apply (AF i). }
    destruct (pstep_main 0 m o I Hleg) as (m' & e & E & I' & L' & M' & _ & T' & _).
    rewrite <- Hlen in Ho. pose proof (sync_flight m o m' e I AF H0 Ho E) as F'.
    rewrite <- Hmax in HT. destruct (T' AF HT) as [AF' HT'].
    destruct (IH m') as (m2 & es & E2 & ? & ?); try done; try congruence.
    rewrite E. cbn [mbind res_bind]. rewrite E2. cbn [mbind res_bind]. eexists _, _. split; [done|]. done.
Qed.
Print Assumptions C36_limit_sync.

(** A visit unloads a page only when it has to load its own, and only pages less
    recently visited than every other page which stays; without the last one
    unloaded the limit would be exceeded; afterwards what is loaded plus the page
    being loaded is within the limit. *)
Theorem C36_evict : ∀ k all sizes max es m i p sync m' e,
  phist k (pm_new all sizes max) es m → legal k m (Visit i sync) → pstep m (Visit i sync) = Ok (m', e) → pm_pages m !! i = Some p →
  (∀ x j, loaded m x = true → loaded m' x = false → loaded m' j = true → j ≠ i → more_recent (visited es) j x) ∧
  (∀ x, loaded m x = true → loaded m' x = false → pg_loaded p = false ∧ pg_loading p = false ∧
     ∃ y py, loaded m y = true ∧ loaded m' y = false ∧ pm_pages m !! y = Some py ∧
       max < cache_num_vertices m' + pg_n py + (if loaded m' i then 0 else pg_n p)) ∧
  (pg_loaded p = false → pg_loading p = false → cache_num_vertices m' + (if loaded m' i then 0 else pg_n p) ≤ max).
Proof.
  intros k all sizes max es m i p sync m' e H Hl Hs Hp. destruct (pm_new_inv all sizes max) as [I B].
  destruct (phist_main _ _ _ _ I B H) as (Hi & _ & Hmax & _ & _ & Hrec). cbn in Hmax.
  destruct Hl as [(p' & Hp' & Hn) _]. rewrite Hp in Hp'. injection Hp' as <-.
  destruct (visit_main m i p sync Hi Hp Hn) as (m1 & es1 & ev & m2 & E & L & _ & Hpg & _).
  cbn [pstep] in Hs. rewrite E in Hs. injection Hs as <- _.
  assert (Hlm : ∀ j, loaded m2 j = loaded m1 j) by (intros; unfold loaded; by rewrite Hpg).
  assert (Hcm : cache_num_vertices m2 = cache_num_vertices m1) by (unfold cache_num_vertices; by rewrite Hpg).
  assert (Hex : ∀ x, loaded m x = true → loaded m2 x = false → x ∈ ev).
  { intros x H1 H2. rewrite Hlm in H2. destruct (decide (x = i)) as [->|Hx].
    - rewrite (ls_loaded _ _ _ _ _ _ _ L) in H2. unfold loaded in H1. rewrite Hp in H1. by rewrite H1 in H2.
    - rewrite (ls_others _ _ _ _ _ _ _ L x Hx), H1 in H2. apply bool_decide_eq_false in H2. by apply dec_stable in H2. }
  split; [|split].
  - intros x j H1 H2 H3 Hj. apply Hrec. apply (ls_before _ _ _ _ _ _ _ L); [by apply Hex|by rewrite <- Hlm|done].
  - intros x H1 H2. pose proof (Hex x H1 H2) as Hx.
    assert (Hnl : pg_loaded p = false ∧ pg_loading p = false).
    { destruct (pg_loaded p) eqn:Ed, (pg_loading p) eqn:El; try done;
        (destruct (ls_only _ _ _ _ _ _ _ L) as [_ He]; [by auto|]); subst ev; by apply elem_of_nil in Hx. }
    destruct Hnl as [H3 H4]. split; [done|]. split; [done|].
    destruct (last ev) as [y|] eqn:Ey; [|apply last_None in Ey; subst ev; by apply elem_of_nil in Hx].
    assert (Hy : y ∈ ev) by (by apply last_Some_elem_of).
    assert (Hy1 : loaded m y = true) by (by apply L).
    assert (Hpy : ∃ py, pm_pages m !! y = Some py). { unfold loaded in Hy1. destruct (pm_pages m !! y) as [py|]; [by exists py|done]. }
    destruct Hpy as [py Hpy]. exists y, py. split; [done|]. split.
    { rewrite Hlm. assert (y ≠ i) by (intros ->; by apply (ls_notin _ _ _ _ _ _ _ L)).
      rewrite (ls_others _ _ _ _ _ _ _ L) by done. rewrite bool_decide_eq_false_2 by auto. by rewrite andb_false_r. }
    split; [done|]. rewrite Hlm, Hcm, <- Hmax. by apply (ls_needed _ _ _ _ _ _ _ L y).
  - intros H3 H4. rewrite Hlm, Hcm, <- Hmax. by apply (ls_fits _ _ _ _ _ _ _ L).
Qed.
Print Assumptions C36_evict.

(** The function given to a visit is called with the page if it is loaded or the
    loader finishes at once, and with no other page.  Otherwise the page is being
    loaded, and is loaded at most once at a time. *)
Theorem C36_visited : ∀ k all sizes max es m i sync m' e,
  phist k (pm_new all sizes max) es m → legal k m (Visit i sync) → pstep m (Visit i sync) = Ok (m', e) →
  loaded m' i = loaded m i || (sync && negb (loading m i)) ∧
  loading m' i = loading m i || (negb (loaded m i) && negb sync) ∧
  visited e = (if loaded m' i then [i] else []) ∧
  (∀ j, j ≠ i → loading m' j = loading m j) ∧ (∀ j, j ≠ i → loaded m' j = true → loaded m j = true).
Proof.
  intros k all sizes max es m i sync m' e H Hl Hs. destruct (pm_new_inv all sizes max) as [I B].
  destruct (phist_main _ _ _ _ I B H) as (Hi & _). destruct Hl as [(p & Hp & Hn) _].
  destruct (visit_main m i p sync Hi Hp Hn) as (m1 & es1 & ev & m2 & E & L & _ & Hpg & _).
  cbn [pstep] in Hs. rewrite E in Hs. injection Hs as <- <-.
  assert (Hlm : ∀ j, loaded m2 j = loaded m1 j) by (intros; unfold loaded; by rewrite Hpg).
  assert (Hlo : ∀ j, loading m2 j = loading m1 j) by (intros; unfold loading; by rewrite Hpg).
  assert (Hp1 : loaded m i = pg_loaded p) by (unfold loaded; by rewrite Hp).
  assert (Hp2 : loading m i = pg_loading p) by (unfold loading; by rewrite Hp).
  split. { rewrite Hlm, Hp1, Hp2. apply L. } split. { rewrite Hlo, Hp1, Hp2. apply L. }
  split. { rewrite visited_app, (ls_visited _ _ _ _ _ _ _ L). by destruct (loaded m2 i). }
  split.
  - intros j Hj. rewrite Hlo. unfold loading. destruct (pm_pages m !! j) as [q|] eqn:Hq.
    + destruct (ls_pages _ _ _ _ _ _ _ L j q Hq) as (q' & -> & _ & Hld). by apply Hld.
    + replace (pm_pages m1 !! j) with (@None page); [done|]. symmetry. apply lookup_ge_None.
      rewrite (ls_len _ _ _ _ _ _ _ L). by apply lookup_ge_None.
  - intros j Hj. rewrite Hlm, (ls_others _ _ _ _ _ _ _ L j Hj). by intros [? _]%andb_true_iff.
Qed.
Print Assumptions C36_visited.

(** Every visit or completed load reports a page exactly when its being loaded
    changes, once for each change. *)
Theorem C36_reports : ∀ k all sizes max es m o m' e,
  phist k (pm_new all sizes max) es m → legal k m o → pstep m o = Ok (m', e) → o ≠ ClearCache →
  ∀ j, loaded m' j = xorb (loaded m j) (Nat.odd (length (filter (λ x, x = j) (reported e)))).
Proof.
  intros k all sizes max es m o m' e H Hl Hs Ho. destruct (pm_new_inv all sizes max) as [I B].
  destruct (phist_main _ _ _ _ I B H) as (Hi & _).
  destruct (pstep_main k m o Hi Hl) as (m2 & e2 & E & _ & _ & _ & _ & _ & _ & HR). rewrite Hs in E. injection E as <- <-. by apply HR.
Qed.
Print Assumptions C36_reports.

(** Loads from a single file get their own pages when they do not overlap. *)
Theorem C36_loads_in_turn : ∀ is, ld_done (load_run (is ≫= λ i, [i; i])) = (λ i, (i, Some i)) <$> is.
Proof.
  intros is. unfold load_run.
  assert (H : ∀ p d, ld_done (foldl load_step (Loads p ∅ d) (is ≫= λ i, [i; i])) = d ++ ((λ i, (i, Some i)) <$> is)); [|apply H].
  induction is as [|i is IH]; intros p d; cbn [mbind list_bind]; [by rewrite app_nil_r|].
  cbn [app foldl fmap list_fmap].
  replace (load_step (load_step (Loads p ∅ d) i) i) with (Loads (Some (S i)) ∅ (d ++ [(i, Some i)])).
  - rewrite IH, <- app_assoc. done.
  - unfold load_step at 2. cbn [ld_seeked]. rewrite decide_False by set_solver. unfold load_step. cbn [ld_seeked ld_done ld_pos].
    rewrite decide_True by set_solver. cbn. f_equal. apply leibniz_equiv. set_solver.
Qed.
Print Assumptions C36_loads_in_turn.

(** ** Where it stops *)
(** With two loads in flight the loaded vertices exceed the limit. *)
Theorem C36_limit_async_refuted : ∃ sizes max os m es,
  Forall (λ n, n < max) sizes ∧ prun (pm_new false sizes max) os = Ok (m, es) ∧ max < cache_num_vertices m.
Proof.
  exists [7; 7], 10, [Visit 0 false; Visit 1 false; Assign 0; Assign 1].
  eexists _, _. split; [by repeat constructor; lia|]. split; [reflexivity|]. vm_compute. lia.
Qed.
Print Assumptions C36_limit_async_refuted.
(** A page of exactly the limit, which would fit, fails an assertion. *)
Theorem C36_page_of_limit_refuted : ∃ sizes max i,
  Forall (λ n, n ≤ max) sizes ∧ i < length sizes ∧ prun (pm_new false sizes max) [Visit i true] = AssertFail.
Proof. exists [10], 10, 0. split; [by repeat constructor|]. split; [vm_compute; lia|reflexivity]. Qed.
Print Assumptions C36_page_of_limit_refuted.
(** A mesh created in memory is over the limit from the start, and stays so
    when its pages are visited. *)
Theorem C36_created_over_limit_refuted : ∃ sizes max,
  Forall (λ n, n < max) sizes ∧ ∀ n, ∃ m es, prun (pm_new true sizes max) (replicate n (Visit 0 true)) = Ok (m, es) ∧ max < cache_num_vertices m.
Proof.
  exists [7; 7], 10. split; [by repeat constructor; lia|]. intros n. exists (pm_new true [7; 7] 10), (replicate n (Visited 0)).
  split; [|vm_compute; lia]. induction n as [|n IH]; [done|]. cbn [replicate prun].
  change (pstep (pm_new true [7; 7] 10) (Visit 0 true)) with (Ok (pm_new true [7; 7] 10, [Visited 0])). cbn [mbind res_bind].
  rewrite IH. done.
Qed.
Print Assumptions C36_created_over_limit_refuted.
(** A thickness set is lost when a page is unloaded and loaded again. *)
Theorem C36_thickness_refuted : ∃ sizes max i j t m es m' es' p,
  prun (pm_new false sizes max) [Visit i true] = Ok (m, es) ∧
  prun (set_thickness m t) [Visit j true; Visit i true] = Ok (m', es') ∧
  pm_pages m' !! i = Some p ∧ pg_loaded p = true ∧ pg_thick p ≠ t.
Proof.
  exists [7; 7], 10, 0, 1, 5, (PMesh [Page 7 true false 1; Page 7 false false 1] [0; 1] 10 1), [Reported 0; Visited 0].
  exists (PMesh [Page 7 true false 1; Page 7 false false 1] [0; 1] 10 1),
    [Reported 0; Reported 1; Visited 1; Reported 1; Reported 0; Visited 0], (Page 7 true false 1).
  split; [vm_compute; reflexivity|]. split; [vm_compute; reflexivity|]. split_and!; done.
Qed.
Print Assumptions C36_thickness_refuted.
(** Clearing the cache reports nothing. *)
Theorem C36_clear_unreported_refuted : ∃ sizes max m es m' i,
  prun (pm_new false sizes max) [Visit i true] = Ok (m, es) ∧ pstep m ClearCache = Ok (m', []) ∧
  loaded m i = true ∧ loaded m' i = false.
Proof.
  exists [7; 7], 10, (PMesh [Page 7 true false 1; Page 7 false false 1] [0; 1] 10 1), [Reported 0; Visited 0].
  exists (PMesh [Page 7 false false 1; Page 7 false false 1] [0; 1] 10 1), 0.
  split; [vm_compute; reflexivity|]. split; [vm_compute; reflexivity|]. done.
Qed.
Print Assumptions C36_clear_unreported_refuted.
(** Overlapping loads from a single file give a page the data of another. *)
Theorem C36_loads_overlap_refuted : ∃ sched i p,
  (∀ j, j ∈ sched → length (filter (λ x, x = j) sched) = 2) ∧ (i, p) ∈ ld_done (load_run sched) ∧ p ≠ Some i.
Proof.
  exists [0; 1; 0; 1], 0, (Some 1). split; [|split; [|done]].
  - intros j Hj. repeat (apply elem_of_cons in Hj as [->|Hj]; [reflexivity|]). by apply elem_of_nil in Hj.
  - apply (bool_decide_unpack _). vm_compute. exact I.
Qed.
Print Assumptions C36_loads_overlap_refuted.

(** A history: three pages of 4 vertices and a limit of 10; the second visit of
    page 0 makes page 1 the one to go when page 2 is loaded. *)
Example C36_case : ∃ m es,
  prun (pm_new false [4; 4; 4] 10) [Visit 0 true; Visit 1 true; Visit 0 true; Visit 2 true] = Ok (m, es) ∧
  es = [Reported 0; Visited 0; Reported 1; Visited 1; Visited 0; Reported 1; Reported 2; Visited 2] ∧
  loaded m 0 = true ∧ loaded m 1 = false ∧ loaded m 2 = true ∧ cache_num_vertices m = 8.
Proof.
  exists (PMesh [Page 4 true false 1; Page 4 false false 1; Page 4 true false 1] [2; 0; 1] 10 1). eexists.
  split; [vm_compute; reflexivity|]. done.
Qed.
(** The same as a legal history with the load of page 2 finishing later. *)
Local Ltac take_step H o :=
  lazymatch type of H with phist ?k ?m0 ?es ?m =>
    let r := eval vm_compute in (pstep m o) in
    lazymatch r with Ok (?m', ?e) =>
      let es' := eval vm_compute in (es ++ e) in
      let H' := fresh in
      assert (H' : phist k m0 es' m') by
        (apply (phist_step k m0 es m o m' e H);
          [lazymatch o with
           | Visit _ _ => split; [eexists; split; [vm_compute; reflexivity|apply (bool_decide_unpack _); vm_compute; exact I]|apply (bool_decide_unpack _); vm_compute; exact I]
           | _ => vm_compute; reflexivity
           end|vm_compute; reflexivity]);
      clear H; rename H' into H
    end
  end.
Example C36_case_async : ∃ es m, phist 0 (pm_new false [4; 4; 4] 10) es m ∧
  visited es = [0; 1; 0; 2] ∧ loaded m 1 = false ∧ loaded m 2 = true ∧ in_flight m = 0.
Proof.
  pose proof (phist_init 0 (pm_new false [4; 4; 4] 10)) as H.
  take_step H (Visit 0 true). take_step H (Visit 1 true). take_step H (Visit 0 true). take_step H (Visit 2 false).
  take_step H (Assign 2). take_step H (Visit 2 true).
  eexists _, _. split; [exact H|]. vm_compute. done.
Qed.
