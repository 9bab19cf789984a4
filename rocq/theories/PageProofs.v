(** Proofs about the page cache. *)
From Verif Require Import PageModel.

(** ** Specification *)
Definition reported (es : list pev) : list nat := omap (λ e, match e with Reported i => Some i | _ => None end) es.
Definition visited (es : list pev) : list nat := omap (λ e, match e with Visited i => Some i | _ => None end) es.
Definition before (l : list nat) (j x : nat) : Prop := ∃ l1 l2 l3, l = l1 ++ j :: l2 ++ x :: l3.
(** [j] was visited after the last visit of [x]; among pages never visited the
    lower index counts as more recent *)
Definition more_recent (vs : list nat) (j x : nat) : Prop :=
  (∃ v1 v2, vs = v1 ++ j :: v2 ∧ x ∉ v2 ∧ j ≠ x) ∨ (j ∉ vs ∧ x ∉ vs ∧ j < x).
Definition in_flight (m : pmesh) : nat := length (filter (λ p, pg_loading p = true) (pm_pages m)).
(** What a well behaved loader and application do: visit pages that exist and
    are below the limit, with at most [k] loads in flight; finish loads that
    were asked for. *)
Definition legal (k : nat) (m : pmesh) (o : pop) : Prop :=
  match o with
  | Visit i _ => (∃ p, pm_pages m !! i = Some p ∧ pg_n p < pm_max m) ∧ in_flight m ≤ k
  | Assign i => loading m i = true
  | ClearCache => True
  end.
(** Histories, with everything observed. *)
Inductive phist (k : nat) (m0 : pmesh) : list pev → pmesh → Prop :=
| phist_init : phist k m0 [] m0
| phist_step es m o m' e : phist k m0 es m → legal k m o → pstep m o = Ok (m', e) → phist k m0 (es ++ e) m'.

Lemma visited_app a b : visited (a ++ b) = visited a ++ visited b.
Proof. apply omap_app. Qed.
Lemma reported_app a b : reported (a ++ b) = reported a ++ reported b.
Proof. apply omap_app. Qed.

(** ** Invariant *)
Record pinv (m : pmesh) : Prop := {
  pi_lru : pm_lru m ≡ₚ seq 0 (length (pm_pages m));
  pi_load : Forall (λ p, pg_loading p = true → pg_loaded p = false) (pm_pages m) }.

Lemma pinv_nodup m : pinv m → NoDup (pm_lru m).
Proof. intros [H _]. rewrite H. apply NoDup_seq. Qed.
Lemma pinv_in m i : pinv m → i ∈ pm_lru m ↔ i < length (pm_pages m).
Proof. intros [H _]. rewrite H, elem_of_seq. lia. Qed.
Lemma loaded_lt m i : loaded m i = true → i < length (pm_pages m).
Proof. unfold loaded. destruct (pm_pages m !! i) eqn:E; [|done]. intros _. by eapply lookup_lt_Some. Qed.

Lemma sum_unload l : ∀ i p, l !! i = Some p → pg_loaded p = true → sum_loaded (alter (set_loaded false) i l) + pg_n p = sum_loaded l.
Proof.
  induction l as [|q l IH]; intros i p Hi Hp; [done|]. destruct i as [|i]; cbn.
  - injection Hi as ->. rewrite Hp. lia.
  - fold (sum_loaded (alter (set_loaded false) i l)). fold (sum_loaded l). rewrite <- (IH i p Hi Hp). lia.
Qed.
Definition count_loaded (l : list page) : nat := length (filter (λ p, pg_loaded p = true) l).
Lemma count_unload l : ∀ i p, l !! i = Some p → pg_loaded p = true → S (count_loaded (alter (set_loaded false) i l)) = count_loaded l.
Proof.
  unfold count_loaded. induction l as [|q l IH]; intros i p Hi Hp; [done|]. destruct i as [|i]; cbn [alter list_alter].
  - injection Hi as ->. by rewrite filter_cons_False, filter_cons_True.
  - change (list_alter (set_loaded false) i l) with (alter (set_loaded false) i l). rewrite !filter_cons.
    destruct (decide (pg_loaded q = true)); cbn [length]; by rewrite <- (IH i p Hi Hp).
Qed.
Lemma count_0 l : count_loaded l = 0 → sum_loaded l = 0.
Proof.
  unfold count_loaded. induction l as [|q l IH]; [done|]. rewrite filter_cons. destruct (decide (pg_loaded q = true)) as [E|E]; [done|].
  intros H. cbn. fold (sum_loaded l). rewrite (IH H). by destruct (pg_loaded q).
Qed.
Lemma count_loaded_le l : count_loaded l ≤ length l.
Proof. apply filter_length. Qed.
Lemma sum_0_unloaded l : (∀ i p, l !! i = Some p → pg_loaded p = false) → sum_loaded l = 0.
Proof.
  induction l as [|q l IH]; [done|]. intros H. cbn. fold (sum_loaded l). rewrite (H 0 q eq_refl), IH; [done|].
  intros i p. apply (H (S i)).
Qed.

(** ** Unloading *)
Lemma unload_spec m : pinv m →
  (∃ i p, pm_pages m !! i = Some p ∧ pg_loaded p = true ∧
     unload m = (set_pages m (alter (set_loaded false) i (pm_pages m)), [Reported i]) ∧
     ∀ j, loaded m j = true → j ≠ i → before (pm_lru m) j i) ∨
  (unload m = (m, []) ∧ cache_num_vertices m = 0).
Proof.
  intros Hi. unfold unload. destruct (list_find _ _) as [[k i]|] eqn:E.
  - left. apply list_find_Some in E as (Hk & Hl & Hmin).
    assert (Hp : ∃ p, pm_pages m !! i = Some p ∧ pg_loaded p = true).
    { unfold loaded in Hl. destruct (pm_pages m !! i) as [p|]; [|done]. by exists p. }
    destruct Hp as (p & Hp & Hlp). exists i, p. split; [done|]. split; [done|]. split; [done|].
    intros j Hj Hne. destruct (elem_of_list_split_length _ _ _ Hk) as (l1 & l2 & Hrev & Hlen).
    assert (Hlru : pm_lru m = reverse l2 ++ i :: reverse l1).
    { rewrite <- (reverse_involutive (pm_lru m)), Hrev, reverse_app, reverse_cons, <- app_assoc. done. }
    assert (Hin : j ∈ pm_lru m) by (apply pinv_in; [done|by apply loaded_lt]).
    rewrite Hlru in Hin. apply elem_of_app in Hin as [Hin|Hin].
    + apply elem_of_list_split in Hin as (u & v & Hu). exists u, v, (reverse l1). rewrite Hlru, Hu, <- app_assoc. done.
    + apply elem_of_cons in Hin as [?|Hin]; [done|]. rewrite elem_of_reverse in Hin.
      apply elem_of_list_lookup in Hin as (k' & Hk'). pose proof (lookup_lt_Some _ _ _ Hk').
      exfalso. eapply (Hmin k' j); [|lia|done]. rewrite Hrev. by apply lookup_app_l_Some.
  - right. split; [done|]. apply list_find_None in E. apply sum_0_unloaded. intros i p Hp.
    destruct (pg_loaded p) eqn:El; [|done]. exfalso.
    assert (Hin : i ∈ reverse (pm_lru m)). { apply elem_of_reverse. apply pinv_in; [done|]. by eapply lookup_lt_Some. }
    rewrite Forall_forall in E. apply (E i Hin). unfold loaded. by rewrite Hp.
Qed.

(** Only the loaded flags of some pages were cleared. *)
Definition unloaded_only (e : list nat) (m m' : pmesh) : Prop :=
  pm_lru m' = pm_lru m ∧ pm_max m' = pm_max m ∧ pm_thick m' = pm_thick m ∧ length (pm_pages m') = length (pm_pages m) ∧
  ∀ i p, pm_pages m !! i = Some p → pm_pages m' !! i = Some (if decide (i ∈ e) then set_loaded false p else p).
Lemma unloaded_pinv e m m' : pinv m → unloaded_only e m m' → pinv m'.
Proof.
  intros [H1 H2] (E1 & E2 & E3 & E4 & E5). split; [by rewrite E1, E4|]. apply Forall_lookup. intros i p' Hp'.
  assert (Hlt : i < length (pm_pages m)) by (rewrite <- E4; by eapply lookup_lt_Some).
  destruct (lookup_lt_is_Some_2 _ _ Hlt) as [p Hp]. rewrite (E5 i p Hp) in Hp'. injection Hp' as <-.
  rewrite Forall_lookup in H2. specialize (H2 i p Hp). by destruct (decide (i ∈ e)).
Qed.
Lemma unloaded_loaded e m m' i : unloaded_only e m m' → loaded m' i = loaded m i && bool_decide (i ∉ e).
Proof.
  intros (_ & _ & _ & E4 & E5). unfold loaded. destruct (pm_pages m !! i) as [p|] eqn:Hp.
  - rewrite (E5 i p Hp). destruct (decide (i ∈ e)) as [Hin|Hin].
    + rewrite bool_decide_eq_false_2 by (intros ?; done). by rewrite andb_false_r.
    + rewrite bool_decide_eq_true_2 by done. by rewrite andb_true_r.
  - replace (pm_pages m' !! i) with (@None page); [done|]. symmetry. apply lookup_ge_None. rewrite E4. by apply lookup_ge_None.
Qed.
Lemma unloaded_filter e m m' : unloaded_only e m m' → in_flight m' = in_flight m.
Proof.
  intros (_ & _ & _ & E4 & E5). unfold in_flight.
  assert (HF : Forall2 (λ p q, pg_loading q = pg_loading p) (pm_pages m) (pm_pages m')).
  { apply Forall2_same_length_lookup. split; [done|]. intros i p q Hp Hq. rewrite (E5 i p Hp) in Hq. injection Hq as <-.
    by destruct (decide (i ∈ e)). }
  clear E4 E5. revert HF. generalize (pm_pages m), (pm_pages m'). intros l0 l0' HF.
  induction HF as [|p q l l' Hpq _ IH]; [done|]. rewrite !filter_cons, Hpq.
  destruct (decide (pg_loading p = true)); cbn [length]; by rewrite IH.
Qed.

Lemma evict_main n fuel : ∀ m, pinv m → n ≤ pm_max m → count_loaded (pm_pages m) < fuel →
  ∃ m' e, evict fuel m n = Ok (m', Reported <$> e) ∧ unloaded_only e m m' ∧ NoDup e ∧
    cache_num_vertices m' + n ≤ pm_max m ∧
    (∀ x, x ∈ e → loaded m x = true) ∧
    (∀ x j, x ∈ e → loaded m' j = true → before (pm_lru m) j x) ∧
    (∀ x p, last e = Some x → pm_pages m !! x = Some p → pm_max m < cache_num_vertices m' + pg_n p + n).
Proof.
  induction fuel as [|fuel IH]; intros m Hi Hn Hf; [lia|]. cbn [evict].
  destruct (decide (pm_max m < cache_num_vertices m + n)) as [Hover|Hok].
  - destruct (unload_spec m Hi) as [(i & p & Hp & Hlp & -> & Hbef)|[_ Hz]]; [|lia].
    set (m1 := set_pages m (alter (set_loaded false) i (pm_pages m))).
    assert (U1 : unloaded_only [i] m m1).
    { split_and!; try done; cbn [m1 set_pages pm_pages].
      - apply alter_length.
      - intros j q Hq. destruct (decide (j ∈ [i])) as [Hj|Hj].
        + apply elem_of_list_singleton in Hj as ->. rewrite list_lookup_alter, Hq. done.
        + rewrite list_lookup_alter_ne; [done|]. intros ->. apply Hj. left. }
    assert (Hi1 : pinv m1) by (by eapply unloaded_pinv).
    destruct (IH m1 Hi1 Hn) as (m' & e & -> & U2 & ND & Hc & Hl & Hb & Hlast).
    { pose proof (count_unload _ _ _ Hp Hlp). cbn [m1 set_pages pm_pages]. lia. }
    assert (Hie : i ∉ e). { intros Hx. apply Hl in Hx. rewrite (unloaded_loaded _ _ _ i U1) in Hx.
      apply andb_true_iff in Hx as [_ Hx]. apply bool_decide_eq_true in Hx. apply Hx. left. }
    assert (Hl1 : ∀ j, loaded m1 j = true → loaded m j = true ∧ j ≠ i).
    { intros j Hj. rewrite (unloaded_loaded _ _ _ j U1) in Hj. apply andb_true_iff in Hj as [? Hj].
      apply bool_decide_eq_true in Hj. split; [done|]. intros ->. apply Hj. left. }
    assert (Hl' : ∀ j, loaded m' j = true → loaded m1 j = true).
    { intros j Hj. rewrite (unloaded_loaded _ _ _ j U2) in Hj. by apply andb_true_iff in Hj as [? _]. }
    exists m', (i :: e). split; [done|]. split_and!.
    + destruct U1 as (A1 & A2 & A3 & A4 & A5), U2 as (B1 & B2 & B3 & B4 & B5). split_and!; try congruence.
      intros j q Hq. rewrite (B5 j _ (A5 j q Hq)).
      destruct (decide (j ∈ e)), (decide (j ∈ [i])) as [Hj|Hj], (decide (j ∈ i :: e)) as [Hj'|Hj']; try done.
      * exfalso. apply Hj'. by right.
      * exfalso. apply Hj'. by right.
      * exfalso. apply Hj'. apply elem_of_list_singleton in Hj as ->. left.
      * exfalso. apply elem_of_cons in Hj' as [->|?]; [|done]. apply Hj. left.
    + by constructor.
    + exact Hc.
    + intros x [->|Hx]%elem_of_cons; [unfold loaded; by rewrite Hp|]. by apply Hl1, Hl.
    + intros x j [->|Hx]%elem_of_cons Hj.
      * apply Hl', Hl1 in Hj as [? ?]. by apply Hbef.
      * exact (Hb x j Hx Hj).
    + intros x q Hx Hq. destruct e as [|x' e].
      * injection Hx as <-. rewrite Hp in Hq. injection Hq as <-.
        pose proof (sum_unload _ _ _ Hp Hlp) as Hsum.
        assert (Hsame : cache_num_vertices m' = cache_num_vertices m1).
        { unfold cache_num_vertices. f_equal. apply list_eq. intros j. destruct U2 as (_ & _ & _ & E4 & E5).
          destruct (pm_pages m1 !! j) as [q'|] eqn:Hq'; [by rewrite (E5 _ _ Hq')|]. apply lookup_ge_None. rewrite E4. by apply lookup_ge_None. }
        rewrite Hsame. unfold cache_num_vertices in *. cbn [m1 set_pages pm_pages]. lia.
      * rewrite last_cons_cons in Hx.
        assert (Hxi : x ≠ i). { intros ->. apply Hie. by apply last_Some_elem_of. }
        assert (Hq1 : pm_pages m1 !! x = Some q) by (cbn [m1 set_pages pm_pages]; by rewrite list_lookup_alter_ne).
        pose proof (Hlast x q Hx Hq1) as HL. done.
  - exists m, []. split; [done|]. split_and!; try done; try lia; [constructor|by intros x ?%elem_of_nil|by intros x j ?%elem_of_nil].
Qed.

(** ** Marking *)
Lemma mark_spec m i : pinv m → i < length (pm_pages m) →
  ∃ a b, pm_lru m = a ++ i :: b ∧ mark_recent_visit m i = Ok (PMesh (pm_pages m) (i :: a ++ b) (pm_max m) (pm_thick m)).
Proof.
  intros Hi Hlt. assert (Hin : i ∈ pm_lru m) by (by apply pinv_in).
  unfold mark_recent_visit, split_at. destruct (list_find _ _) as [[k x]|] eqn:E.
  - apply list_find_Some in E as (Hk & -> & _). exists (take k (pm_lru m)), (drop (S k) (pm_lru m)).
    split; [by rewrite take_drop_middle|done].
  - apply list_find_None in E. rewrite Forall_forall in E. by destruct (E i Hin).
Qed.
Lemma before_cases a x l j y : NoDup (a ++ x :: l) → before (x :: a ++ l) j y →
  (j = x ∧ y ≠ x) ∨ (j ≠ x ∧ y ≠ x ∧ before (a ++ x :: l) j y).
Proof.
  intros ND (l1 & l2 & l3 & E).
  assert (ND' : NoDup (x :: a ++ l)). { rewrite Permutation_middle. done. }
  destruct l1 as [|z l1]; injection E as -> E.
  - left. split; [done|]. intros ->. inversion ND' as [|? ? Hni _]; subst. apply Hni. rewrite E. apply elem_of_app. right. left.
  - right. inversion ND' as [|? ? Hni ND'']; subst.
    assert (Hj : j ∈ a ++ l) by (rewrite E; apply elem_of_app; right; left).
    assert (Hy : y ∈ a ++ l) by (rewrite E; apply elem_of_app; right; right; apply elem_of_app; right; left).
    split; [intros ->; done|]. split; [intros ->; done|].
    apply app_eq_inv in E as [(k & -> & E)|(k & -> & E)].
    + (* a = l1 ++ k,  k ++ l = j :: l2 ++ y :: l3 *)
      destruct k as [|j' k].
      * cbn in E. subst l. exists (l1 ++ [z]), l2, l3. rewrite app_nil_r, <- app_assoc. done.
      * injection E as -> E. apply app_eq_inv in E as [(k' & -> & E)|(k' & -> & E)].
        -- (* l2 = k ++ k', l = k' ++ y :: l3 *)
           exists l1, (k ++ z :: k'), l3. subst l. by simplify_list_eq.
        -- destruct k' as [|y' k'].
           ++ cbn in E. subst l. exists l1, (l2 ++ [z]), l3. by simplify_list_eq.
           ++ injection E as -> E. exists l1, l2, (k' ++ z :: l). by simplify_list_eq.
    + (* l1 = a ++ k, l = k ++ ... *)
      exists (a ++ z :: k), l2, l3. subst l. rewrite <- app_assoc. done.
Qed.

(** ** Sums *)
Definition wsum (f : page → nat) (l : list page) : nat := foldr (λ p n, f p + n) 0 l.
Lemma wsum_insert f l : ∀ i p q, l !! i = Some p → wsum f (<[i := q]> l) + f p = wsum f l + f q.
Proof.
  induction l as [|x l IH]; intros i p q Hi; [done|]. destruct i as [|i]; cbn.
  - injection Hi as ->. lia.
  - specialize (IH i p q Hi). unfold wsum in IH. cbn in IH. unfold insert in *. lia.
Qed.
Lemma wsum_ext f l l' : Forall2 (λ p q, f q = f p) l l' → wsum f l' = wsum f l.
Proof. induction 1; cbn; [done|]. by f_equal. Qed.
Definition weight (p : page) : nat := if pg_loaded p || pg_loading p then pg_n p else 0.
Definition lweight (p : page) : nat := if pg_loading p then pg_n p else 0.
(** vertices loaded or being loaded *)
Definition total (m : pmesh) : nat := wsum weight (pm_pages m).
Lemma total_split l : Forall (λ p, pg_loading p = true → pg_loaded p = false) l →
  wsum weight l = sum_loaded l + wsum lweight l.
Proof.
  induction 1 as [|p l Hp _ IH]; [done|]. cbn. fold (wsum weight l) (wsum lweight l) (sum_loaded l). rewrite IH. unfold weight, lweight.
  destruct (pg_loading p), (pg_loaded p); cbn; try lia; by specialize (Hp eq_refl).
Qed.
Lemma lweight_bound n l : Forall (λ p, pg_n p ≤ n) l → wsum lweight l ≤ length (filter (λ p, pg_loading p = true) l) * n.
Proof.
  induction 1 as [|p l Hp _ IH]; [done|]. cbn [wsum foldr]. fold (wsum lweight l). rewrite filter_cons. unfold lweight at 1.
  destruct (pg_loading p) eqn:E; destruct (decide _); try congruence; cbn [length]; lia.
Qed.

(** ** One load *)
Record load_spec (m : pmesh) (i : nat) (p : page) (sync : bool) (m' : pmesh) (es : list pev) (e : list nat) : Prop := {
  ls_inv : pinv m';
  ls_lru : pm_lru m' = pm_lru m;
  ls_len : length (pm_pages m') = length (pm_pages m);
  ls_max : pm_max m' = pm_max m;
  ls_thick : pm_thick m' = pm_thick m;
  ls_visited : visited es = [];
  ls_loaded : loaded m' i = pg_loaded p || (sync && negb (pg_loading p));
  ls_loading : loading m' i = pg_loading p || (negb (pg_loaded p) && negb sync);
  ls_only : pg_loaded p = true ∨ pg_loading p = true → pm_pages m' = pm_pages m ∧ e = [];
  ls_nodup : NoDup e;
  ls_notin : i ∉ e;
  ls_was : ∀ x, x ∈ e → loaded m x = true;
  ls_before : ∀ x j, x ∈ e → loaded m' j = true → j ≠ i → before (pm_lru m) j x;
  ls_others : ∀ j, j ≠ i → loaded m' j = loaded m j && bool_decide (j ∉ e);
  ls_needed : ∀ x px, last e = Some x → pm_pages m !! x = Some px →
     pm_max m < cache_num_vertices m' + pg_n px + (if loaded m' i then 0 else pg_n p);
  ls_fits : pg_loaded p = false → pg_loading p = false →
     cache_num_vertices m' + (if loaded m' i then 0 else pg_n p) ≤ pm_max m;
  ls_total : pg_loaded p = false → pg_loading p = false → total m' ≤ pm_max m + wsum lweight (pm_pages m);
  ls_reported : reported es = e ++ (if bool_decide (loaded m' i ≠ loaded m i) then [i] else []);
  ls_pages : ∀ j q, pm_pages m !! j = Some q → ∃ q', pm_pages m' !! j = Some q' ∧ pg_n q' = pg_n q ∧
     (j ≠ i → pg_loading q' = pg_loading q) }.

Lemma insert_lru_pinv m i p q : pinv m → pm_pages m !! i = Some p → (pg_loading q = true → pg_loaded q = false) →
  pinv (set_pages m (<[i := q]> (pm_pages m))).
Proof.
  intros [H1 H2] Hp Hq. split; cbn [set_pages pm_pages pm_lru]; [by rewrite insert_length|].
  by apply Forall_insert.
Qed.
Lemma no_load_spec m i p sync : pinv m → pm_pages m !! i = Some p → pg_loaded p = true ∨ pg_loading p = true →
  load_spec m i p sync m [] [].
Proof.
  intros Hi Hp Hor.
  assert (Hex : pg_loading p = true → pg_loaded p = false) by (destruct Hi as [_ H]; rewrite Forall_lookup in H; by apply (H i)).
  split; try done.
  - unfold loaded. rewrite Hp. destruct (pg_loaded p), (pg_loading p), sync; try done; naive_solver.
  - unfold loading. rewrite Hp. destruct (pg_loaded p), (pg_loading p), sync; try done; naive_solver.
  - constructor.
  - by intros ?%elem_of_nil.
  - by intros x ?%elem_of_nil.
  - by intros x j ?%elem_of_nil.
  - intros j Hj. rewrite bool_decide_eq_true_2 by (by intros ?%elem_of_nil). by rewrite andb_true_r.
  - intros A B. destruct Hor; congruence.
  - intros A B. destruct Hor; congruence.
  - rewrite bool_decide_eq_false_2 by auto. done.
  - intros j q Hq. by exists q.
Qed.

Lemma load_main m i p sync : pinv m → pm_pages m !! i = Some p → pg_n p < pm_max m →
  ∃ m' es e, load_node_if_needed m i sync = Ok (m', es) ∧ load_spec m i p sync m' es e.
Proof.
  intros Hi Hp Hn. assert (Hlt : i < length (pm_pages m)) by (by eapply lookup_lt_Some).
  assert (Hpl : loaded m i = pg_loaded p) by (unfold loaded; by rewrite Hp).
  unfold load_node_if_needed. rewrite Hp.
  destruct (pg_loading p) eqn:El. { exists m, [], []. split; [done|]. apply no_load_spec; auto. }
  destruct (pg_loaded p) eqn:Ed. { exists m, [], []. split; [done|]. apply no_load_spec; auto. }
  set (m1 := set_pages m (<[i := set_loading true p]> (pm_pages m))).
  assert (Hi1 : pinv m1) by (apply (insert_lru_pinv _ _ p); done).
  rewrite (bool_decide_eq_true_2 _ Hn : bool_decide (pg_n p < pm_max m1) = true). cbn [assert_ mbind res_bind].
  assert (Hlen1 : length (pm_pages m1) = length (pm_pages m)) by (cbn [m1 set_pages pm_pages]; by rewrite insert_length).
  assert (Hp1 : pm_pages m1 !! i = Some (set_loading true p)) by (cbn [m1 set_pages pm_pages]; by rewrite list_lookup_insert).
  assert (Hload1 : ∀ j, loaded m1 j = loaded m j).
  { intros j. unfold loaded. cbn [m1 set_pages pm_pages]. destruct (decide (j = i)) as [->|Hj].
    - by rewrite list_lookup_insert, Hp.
    - by rewrite list_lookup_insert_ne. }
  destruct (evict_main (pg_n p) (S (length (pm_pages m1))) m1 Hi1) as (m2 & e & -> & U & ND & Hc & Hl & Hb & Hlast).
  { cbn. lia. } { pose proof (count_loaded_le (pm_pages m1)). lia. }
  cbn [mbind res_bind]. assert (Hi2 : pinv m2) by (by eapply unloaded_pinv).
  assert (Hie : i ∉ e). { intros Hx. apply Hl in Hx. rewrite Hload1, Hpl in Hx. done. }
  pose proof U as (U1 & U2 & U3 & U4 & U5).
  assert (Hp2 : pm_pages m2 !! i = Some (set_loading true p)). { rewrite (U5 _ _ Hp1). by destruct (decide (i ∈ e)). }
  assert (Hl2 : ∀ j, loaded m2 j = loaded m j && bool_decide (j ∉ e)).
  { intros j. rewrite (unloaded_loaded _ _ _ j U), Hload1. done. }
  assert (Hpg : ∀ j q, pm_pages m !! j = Some q → ∃ q', pm_pages m2 !! j = Some q' ∧ pg_n q' = pg_n q ∧ (j ≠ i → pg_loading q' = pg_loading q)).
  { intros j q Hq. destruct (decide (j = i)) as [->|Hj].
    - rewrite Hp in Hq. injection Hq as <-. eexists. by split.
    - assert (Hq1 : pm_pages m1 !! j = Some q) by (cbn [m1 set_pages pm_pages]; by rewrite list_lookup_insert_ne).
      rewrite (U5 _ _ Hq1). eexists. split; [done|]. by destruct (decide (j ∈ e)). }
  assert (Hrep : reported (Reported <$> e) = e). { clear. induction e as [|x e IH]; [done|]. cbn. f_equal. exact IH. }
  assert (Hvis : visited (Reported <$> e) = []). { clear. induction e as [|x e IH]; [done|]. exact IH. }
  assert (Hi2l : loaded m2 i = false) by (rewrite Hl2, Hpl; done).
  assert (Htot2 : total m2 ≤ pm_max m + wsum lweight (pm_pages m)).
  { unfold total. rewrite total_split by apply Hi2. fold (cache_num_vertices m2).
    assert (Hw : wsum lweight (pm_pages m2) = wsum lweight (pm_pages m1)).
    { apply wsum_ext. apply Forall2_same_length_lookup. split; [done|]. intros j a b Ha Hb'. rewrite (U5 j a Ha) in Hb'.
      injection Hb' as <-. by destruct (decide (j ∈ e)). }
    rewrite Hw. pose proof (wsum_insert lweight _ _ _ (set_loading true p) Hp) as Hins.
    change (pm_pages m1) with (<[i := set_loading true p]> (pm_pages m)).
    assert (lweight p = 0) by (unfold lweight; by rewrite El).
    assert (lweight (set_loading true p) = pg_n p) by done.
    assert (cache_num_vertices m2 + pg_n p ≤ pm_max m) by exact Hc. lia. }
  assert (Hneed : ∀ x px, last e = Some x → pm_pages m !! x = Some px → pm_max m < cache_num_vertices m2 + pg_n px + pg_n p).
  { intros x px Hx Hpx. assert (Hxi : x ≠ i). { intros ->. apply Hie. by apply last_Some_elem_of. }
    apply (Hlast x px Hx). cbn [m1 set_pages pm_pages]. by rewrite list_lookup_insert_ne. }
  assert (Hbef : ∀ x j, x ∈ e → loaded m2 j = true → before (pm_lru m) j x) by exact Hb.
  destruct sync.
  - (* the loader finishes at once *)
    unfold assign_mesh. rewrite Hp2. cbn [opt_res mbind res_bind].
    set (q := Page (pg_n (set_loading true p)) true false (pm_thick m2)).
    set (m3 := set_pages m2 (<[i := q]> (pm_pages m2))).
    assert (Hi3 : pinv m3) by (apply (insert_lru_pinv _ _ (set_loading true p)); done).
    assert (Hlt2 : i < length (pm_pages m2)) by (by eapply lookup_lt_Some).
    assert (Hl3 : loaded m3 i = true) by (unfold loaded; cbn [m3 set_pages pm_pages]; by rewrite list_lookup_insert).
    assert (Hl3' : ∀ j, j ≠ i → loaded m3 j = loaded m2 j).
    { intros j Hj. unfold loaded. cbn [m3 set_pages pm_pages]. by rewrite list_lookup_insert_ne. }
    assert (Hc3 : cache_num_vertices m3 = cache_num_vertices m2 + pg_n p).
    { pose proof (wsum_insert (λ p, if pg_loaded p then pg_n p else 0) _ _ _ q Hp2) as Hins. cbn in Hins. rewrite Ed in Hins.
      unfold cache_num_vertices, sum_loaded. cbn [m3 set_pages pm_pages]. unfold wsum in Hins. lia. }
    exists m3, ((Reported <$> e) ++ [Reported i]), e. split; [done|]. split; try done.
    + cbn [m3 set_pages pm_pages]. by rewrite insert_length, U4.
    + by rewrite visited_app, Hvis.
    + rewrite Hl3, Ed, El. done.
    + unfold loading. cbn [m3 set_pages pm_pages]. rewrite list_lookup_insert by done. rewrite Ed, El. done.
    + rewrite Ed, El. intros [|]; done.
    + intros x Hx. rewrite <- Hload1. by apply Hl.
    + intros x j Hx Hj Hne. rewrite (Hl3' j Hne) in Hj. by apply Hbef.
    + intros j Hj. by rewrite Hl3', Hl2.
    + intros x px Hx Hpx. rewrite Hl3, Hc3. pose proof (Hneed x px Hx Hpx). lia.
    + intros _ _. rewrite Hl3, Hc3. assert (cache_num_vertices m2 + pg_n p ≤ pm_max m) by exact Hc. lia.
    + intros _ _. pose proof (wsum_insert weight _ _ _ q Hp2) as Hins. unfold total in Htot2 |- *. cbn [m3 set_pages pm_pages].
      assert (weight q = weight (set_loading true p)). { unfold weight. cbn. by rewrite Ed. } lia.
    + rewrite reported_app, Hrep, Hl3, Hpl. done.
    + intros j r Hr. destruct (decide (j = i)) as [->|Hj].
      * rewrite Hp in Hr. injection Hr as <-. exists q. cbn [m3 set_pages pm_pages]. by rewrite list_lookup_insert.
      * destruct (Hpg j r Hr) as (q' & Hq' & ?). exists q'. cbn [m3 set_pages pm_pages]. by rewrite list_lookup_insert_ne.
  - exists m2, ((Reported <$> e) ++ []), e. cbn [mbind res_bind]. rewrite app_nil_r. split; [done|]. split; try done.
    + by rewrite U4.
    + rewrite Hi2l, Ed, El. done.
    + unfold loading. rewrite Hp2, El, Ed. done.
    + rewrite Ed, El. intros [|]; done.
    + intros x Hx. rewrite <- Hload1. by apply Hl.
    + intros x j Hx Hj Hne. by apply Hbef.
    + intros x px Hx Hpx. rewrite Hi2l. by apply (Hneed x).
    + intros _ _. rewrite Hi2l. exact Hc.
    + rewrite Hrep, Hi2l, Hpl. by rewrite app_nil_r.
Qed.

(** ** One visit *)
Lemma visit_main m i p sync : pinv m → pm_pages m !! i = Some p → pg_n p < pm_max m →
  ∃ m1 es e m', visit m i sync = Ok (m', es ++ if loaded m' i then [Visited i] else []) ∧
    load_spec m i p sync m1 es e ∧ pinv m' ∧ pm_pages m' = pm_pages m1 ∧ pm_max m' = pm_max m1 ∧ pm_thick m' = pm_thick m1 ∧
    (if loaded m' i then ∃ a b, pm_lru m = a ++ i :: b ∧ pm_lru m' = i :: a ++ b else pm_lru m' = pm_lru m).
Proof.
  intros Hi Hp Hn. assert (Hlt : i < length (pm_pages m)) by (by eapply lookup_lt_Some).
  destruct (load_main m i p sync Hi Hp Hn) as (m1 & es & e & E & L). unfold visit. rewrite E. cbn [mbind res_bind].
  pose proof (ls_inv _ _ _ _ _ _ _ L) as Hi1. exists m1, es, e. destruct (loaded m1 i) eqn:El.
  - destruct (mark_spec m1 i Hi1) as (a & b & Hab & ->). { by rewrite (ls_len _ _ _ _ _ _ _ L). } cbn [mbind res_bind].
    exists (PMesh (pm_pages m1) (i :: a ++ b) (pm_max m1) (pm_thick m1)).
    change (loaded (PMesh (pm_pages m1) (i :: a ++ b) (pm_max m1) (pm_thick m1)) i) with (loaded m1 i). rewrite El.
    split_and!; try done.
    + destruct Hi1 as [H1 H2]. split; cbn [pm_pages pm_lru]; [|done]. rewrite <- H1, Hab. apply Permutation_middle.
    + exists a, b. by rewrite <- (ls_lru _ _ _ _ _ _ _ L).
  - exists m1. rewrite El, app_nil_r. split_and!; try done. by rewrite (ls_lru _ _ _ _ _ _ _ L).
Qed.

(** ** Steps *)
Lemma assign_main m i : pinv m → loading m i = true →
  ∃ p, pm_pages m !! i = Some p ∧ pg_loading p = true ∧ pg_loaded p = false ∧
  let m' := set_pages m (<[i := Page (pg_n p) true false (pm_thick m)]> (pm_pages m)) in
  assign_mesh m i = Ok (m', [Reported i]) ∧ pinv m' ∧ total m' = total m ∧ wsum lweight (pm_pages m') ≤ wsum lweight (pm_pages m).
Proof.
  intros Hi Hl. unfold loading in Hl. destruct (pm_pages m !! i) as [p|] eqn:Hp; [|done]. exists p.
  assert (Hd : pg_loaded p = false) by (destruct Hi as [_ H]; rewrite Forall_lookup in H; by apply (H i)).
  split; [done|]. split; [done|]. split; [done|]. cbn zeta. unfold assign_mesh. rewrite Hp. split; [done|].
  split; [by eapply insert_lru_pinv|]. unfold total. cbn [set_pages pm_pages].
  pose proof (wsum_insert weight _ _ _ (Page (pg_n p) true false (pm_thick m)) Hp) as H1.
  pose proof (wsum_insert lweight _ _ _ (Page (pg_n p) true false (pm_thick m)) Hp) as H2.
  assert (weight (Page (pg_n p) true false (pm_thick m)) = weight p) by (unfold weight; rewrite Hl, Hd; done).
  assert (lweight (Page (pg_n p) true false (pm_thick m)) = 0) by done. lia.
Qed.
Lemma clear_pinv m : pinv m → pinv (clear_cache m).
Proof.
  intros [H1 H2]. split; cbn [clear_cache set_pages pm_pages pm_lru]; [by rewrite fmap_length|].
  apply Forall_fmap. eapply Forall_impl; [exact H2|]. done.
Qed.
Definition all_fit (m : pmesh) : Prop := Forall (λ p, pg_n p < pm_max m) (pm_pages m).
Lemma pstep_main k m o : pinv m → legal k m o →
  ∃ m' e, pstep m o = Ok (m', e) ∧ pinv m' ∧ length (pm_pages m') = length (pm_pages m) ∧ pm_max m' = pm_max m ∧ pm_thick m' = pm_thick m ∧
    (all_fit m → total m ≤ S k * pm_max m → all_fit m' ∧ total m' ≤ S k * pm_max m') ∧
    (∀ j x, before (pm_lru m') j x → ∀ vs, (∀ j x, before (pm_lru m) j x → more_recent vs j x) → more_recent (vs ++ visited e) j x) ∧
    (o ≠ ClearCache → ∀ j, loaded m' j = xorb (loaded m j) (Nat.odd (length (filter (λ x, x = j) (reported e))))).
Proof.
  intros Hi Hl. destruct o as [i sync|i|]; cbn [pstep].
  - destruct Hl as [(p & Hp & Hn) Hk].
    destruct (visit_main m i p sync Hi Hp Hn) as (m1 & es & e & m' & E & L & Hi' & Hpg & Hmx & Hth & Hlru).
    exists m', (es ++ if loaded m' i then [Visited i] else []). split; [done|]. split; [done|].
    split. { rewrite Hpg. apply L. } split. { rewrite Hmx. apply L. } split. { rewrite Hth. apply L. }
    split.
    { intros Hfit Htot. assert (Hmax : pm_max m' = pm_max m) by (rewrite Hmx; apply L). split.
      - unfold all_fit. rewrite Hpg, Hmax. apply Forall_lookup. intros j q' Hq'.
        assert (Hj : j < length (pm_pages m)) by (rewrite <- (ls_len _ _ _ _ _ _ _ L); by eapply lookup_lt_Some).
        destruct (lookup_lt_is_Some_2 _ _ Hj) as [q Hq]. destruct (ls_pages _ _ _ _ _ _ _ L j q Hq) as (q2 & Hq2 & Hn2 & _).
        rewrite Hq' in Hq2. injection Hq2 as <-. rewrite Hn2. unfold all_fit in Hfit. rewrite Forall_lookup in Hfit. by apply (Hfit j).
      - rewrite Hmax. unfold total. rewrite Hpg. fold (total m1).
        destruct (pg_loaded p) eqn:Ed; [|destruct (pg_loading p) eqn:El].
        + destruct (ls_only _ _ _ _ _ _ _ L) as [Hs _]; [by left|]. unfold total. rewrite Hs. exact Htot.
        + destruct (ls_only _ _ _ _ _ _ _ L) as [Hs _]; [by right|]. unfold total. rewrite Hs. exact Htot.
        + pose proof (ls_total _ _ _ _ _ _ _ L Ed El) as HT.
          assert (HB : wsum lweight (pm_pages m) ≤ in_flight m * pm_max m).
          { apply lweight_bound. eapply Forall_impl; [exact Hfit|]. cbn. intros; lia. }
          pose proof (Nat.mul_le_mono_r _ _ (pm_max m) Hk). cbn. lia. }
    split.
    { intros j x Hb vs Hvs. rewrite visited_app, (ls_visited _ _ _ _ _ _ _ L). cbn [app].
      destruct (loaded m' i); [|rewrite app_nil_r; rewrite Hlru in Hb; by apply Hvs].
      destruct Hlru as (a & b & Hab & Hlru). rewrite Hlru in Hb. cbn [visited omap list_omap].
      destruct (before_cases a i b j x) as [[-> Hx]|(Hj & Hx & Hbef)]; [rewrite <- Hab; by apply pinv_nodup|done| |].
      - left. exists vs, []. split; [done|]. split; [by intros ?%elem_of_nil|done].
      - rewrite <- Hab in Hbef. destruct (Hvs j x Hbef) as [(v1 & v2 & -> & H1 & H2)|(H1 & H2 & H3)].
        + left. exists v1, (v2 ++ [i]). rewrite <- app_assoc. split; [done|]. split; [|done]. rewrite elem_of_app, elem_of_list_singleton. naive_solver.
        + right. rewrite !elem_of_app, !elem_of_list_singleton. naive_solver. }
    intros _ j. assert (Hlm : ∀ j, loaded m' j = loaded m1 j) by (intros; unfold loaded; by rewrite Hpg).
    rewrite reported_app, (ls_reported _ _ _ _ _ _ _ L). rewrite Hlm.
    replace (reported (if loaded m' i then [Visited i] else [])) with (@nil nat) by (by destruct (loaded m' i)). rewrite app_nil_r.
    rewrite filter_app, app_length.
    assert (Hcount : length (filter (λ x, x = j) e) = if bool_decide (j ∈ e) then 1 else 0).
    { pose proof (ls_nodup _ _ _ _ _ _ _ L) as ND. clear -ND. induction ND as [|y l Hy ND IH]; [done|]. rewrite filter_cons.
      destruct (decide (y = j)) as [->|Hne].
      - cbn [length]. rewrite IH. rewrite bool_decide_eq_false_2 by done. by rewrite bool_decide_eq_true_2 by left.
      - rewrite IH. assert (j ∈ y :: l ↔ j ∈ l) by (rewrite elem_of_cons; naive_solver).
        by rewrite (bool_decide_ext _ _ H). }
    rewrite Hcount. destruct (decide (j = i)) as [->|Hj].
    + rewrite (bool_decide_eq_false_2 (i ∈ e)) by apply L. destruct (bool_decide (loaded m1 i ≠ loaded m i)) eqn:Eb.
      * rewrite filter_cons_True by done. cbn. apply bool_decide_eq_true in Eb. by destruct (loaded m1 i), (loaded m i).
      * cbn. apply bool_decide_eq_false in Eb. apply dec_stable in Eb. rewrite Eb. by destruct (loaded m i).
    + rewrite (ls_others _ _ _ _ _ _ _ L j Hj).
      replace (filter (λ x, x = j) (if bool_decide (loaded m1 i ≠ loaded m i) then [i] else [])) with (@nil nat).
      2: { destruct (bool_decide (loaded m1 i ≠ loaded m i)); [|done]. rewrite filter_cons_False; [done|]. by intros ->. }
      cbn [length]. rewrite Nat.add_0_r. destruct (decide (j ∈ e)) as [Hin|Hin].
      * rewrite (bool_decide_eq_true_2 _ Hin), (bool_decide_eq_false_2 (j ∉ e)) by auto.
        rewrite (ls_was _ _ _ _ _ _ _ L j Hin). done.
      * rewrite (bool_decide_eq_false_2 _ Hin), (bool_decide_eq_true_2 (j ∉ e)) by auto. by destruct (loaded m j).
  - destruct (assign_main m i Hi Hl) as (p & Hp & El & Ed & E & Hi' & HT & HW). rewrite E.
    eexists _, _. split; [done|]. split; [done|]. cbn [set_pages pm_pages pm_max pm_thick pm_lru].
    split; [by rewrite insert_length|]. split; [done|]. split; [done|]. split.
    { intros Hfit Htot. split; [|by rewrite HT]. unfold all_fit in *. cbn [set_pages pm_pages pm_max]. apply Forall_insert; [done|].
      cbn. rewrite Forall_lookup in Hfit. by apply (Hfit i). }
    split. { intros j x Hb vs Hvs. cbn. rewrite app_nil_r. by apply Hvs. }
    intros _ j. assert (Hlt : i < length (pm_pages m)) by (by eapply lookup_lt_Some).
    unfold loaded. cbn [set_pages pm_pages reported omap list_omap]. destruct (decide (j = i)) as [->|Hj].
    + rewrite list_lookup_insert by done. rewrite Hp, Ed. rewrite filter_cons_True by done. done.
    + rewrite list_lookup_insert_ne by (by intros ->). rewrite filter_cons_False by (by intros ->). by destruct (pm_pages m !! j) as [[? [] ? ?]|].
  - eexists _, _. split; [done|]. split; [by apply clear_pinv|]. cbn [clear_cache set_pages pm_pages pm_max pm_thick pm_lru].
    split; [by rewrite fmap_length|]. split; [done|]. split; [done|]. split.
    { intros Hfit Htot. split.
      - unfold all_fit in *. cbn [set_pages pm_pages pm_max]. apply Forall_fmap. eapply Forall_impl; [exact Hfit|]. done.
      - unfold total in *. cbn [set_pages pm_pages pm_max]. etransitivity; [|exact Htot].
        unfold clear_cache. cbn [set_pages pm_pages]. clear. induction (pm_pages m) as [|q l IH]; [done|].
        rewrite fmap_cons. cbn [wsum foldr]. fold (wsum weight (set_loaded false <$> l)) (wsum weight l).
        assert (weight (set_loaded false q) ≤ weight q); [|lia].
        unfold weight. cbn. destruct (pg_loaded q), (pg_loading q); cbn; lia. }
    split. { intros j x Hb vs Hvs. cbn. rewrite app_nil_r. by apply Hvs. }
    done.
Qed.

(** ** Histories *)
Lemma before_seq j x : ∀ n s, before (seq s n) j x → j < x.
Proof.
  induction n as [|n IH]; intros s (l1 & l2 & l3 & E); cbn in E.
  - by destruct l1.
  - destruct l1 as [|y l1]; injection E as <- E.
    + assert (Hx : x ∈ seq (S s) n) by (rewrite E; apply elem_of_app; right; left). apply elem_of_seq in Hx. lia.
    + apply (IH (S s)). by exists l1, l2, l3.
Qed.
Lemma phist_main k m0 es m : pinv m0 → (∀ j x, before (pm_lru m0) j x → j < x) → phist k m0 es m →
  pinv m ∧ length (pm_pages m) = length (pm_pages m0) ∧ pm_max m = pm_max m0 ∧ pm_thick m = pm_thick m0 ∧
  (all_fit m0 → total m0 ≤ S k * pm_max m0 → all_fit m ∧ total m ≤ S k * pm_max m0) ∧
  (∀ j x, before (pm_lru m) j x → more_recent (visited es) j x).
Proof.
  intros Hi Hb H. induction H as [|es m o m' e H IH Hl Hs].
  - split_and!; try done. intros j x Hjx. right. split_and!; [by intros ?%elem_of_nil..|]. by apply Hb.
  - destruct IH as (I1 & I2 & I3 & I4 & I5 & I6).
    destruct (pstep_main k m o I1 Hl) as (m2 & e2 & E & J1 & J2 & J3 & J4 & J5 & J6 & _). rewrite Hs in E. injection E as <- <-.
    split_and!; try done; try congruence.
    + intros Hf Ht. destruct (I5 Hf Ht) as [A B]. rewrite <- I3 in B. rewrite <- I3, <- J3. by apply J5.
    + intros j x Hjx. rewrite visited_app. by apply (J6 j x Hjx).
Qed.
Lemma pm_new_inv all sizes max : pinv (pm_new all sizes max) ∧ ∀ j x, before (pm_lru (pm_new all sizes max)) j x → j < x.
Proof.
  split.
  - split; cbn; [by rewrite fmap_length|]. apply Forall_fmap, Forall_forall. done.
  - intros j x. apply before_seq.
Qed.
