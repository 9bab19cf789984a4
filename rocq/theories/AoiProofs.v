(** Proofs about interest management. *)
From Verif Require Import AoiModel AoiSpec.
From stdpp Require Import gmap.
Local Open Scope nat_scope.

Lemma split_in (l : list nat) (P : nat → Prop) `{!∀ x, Decision (P x)} : l ≡ₚ filter P l ++ filter (λ x, ¬ P x) l.
Proof.
  induction l as [|x l IH]; [done|]. destruct (decide (P x)).
  - rewrite filter_cons_True by done. rewrite (filter_cons_False (λ x, ¬ P x)) by tauto. cbn. by f_equiv.
  - rewrite filter_cons_False by done. rewrite (filter_cons_True (λ x, ¬ P x)) by tauto.
    rewrite <- Permutation_middle. by f_equiv.
Qed.
Lemma filter_all_in (l : list nat) (P : nat → Prop) `{!∀ x, Decision (P x)} : (∀ x, x ∈ l → P x) → filter P l = l.
Proof.
  induction l as [|x l IH]; intros A; [done|]. rewrite filter_cons_True by (apply A; by left).
  f_equal. apply IH. intros y Y. apply A. by right.
Qed.
Lemma filter_none_in (l : list nat) (P : nat → Prop) `{!∀ x, Decision (P x)} : (∀ x, x ∈ l → ¬ P x) → filter P l = [].
Proof.
  induction l as [|x l IH]; intros A; [done|]. rewrite filter_cons_False by (apply A; by left).
  apply IH. intros y Y. apply A. by right.
Qed.
Lemma filter_perm (P : nat → Prop) `{!∀ x, Decision (P x)} (l k : list nat) : l ≡ₚ k → filter P l ≡ₚ filter P k.
Proof. intros E. by rewrite E. Qed.
Lemma both_perm (l k : list nat) : NoDup l → NoDup k → filter (λ x, x ∈ k) l ≡ₚ filter (λ x, x ∈ l) k.
Proof.
  intros L K. apply NoDup_Permutation; [by apply NoDup_filter..|]. intros x. rewrite !elem_of_list_filter. tauto.
Qed.

(** ** Accumulated deltas *)
Lemma updates_ok cs : ∀ s P K,
  NoDup (oi_ents s) → Forall NoDup cs → stays (oi_ents s :: cs) →
  (∀ e c, e ∈ oi_entered s → c ∈ cs → e ∈ c) →
  P ≡ₚ oi_exited s ++ K → oi_ents s ≡ₚ K ++ oi_entered s →
  let s' := foldl (λ s c, aoi_update c s) s cs in
  ∃ K', P ≡ₚ oi_exited s' ++ K' ∧ oi_ents s' ≡ₚ K' ++ oi_entered s' ∧
    oi_ents s' = default (oi_ents s) (last cs) ∧ NoDup (oi_ents s') ∧ oi_count s' = oi_count s.
Proof.
  induction cs as [|c cs IH]; intros s P K N F ST EN HP HC s'.
  - exists K. split_and!; done.
  - apply Forall_cons in F as [Nc F].
    assert (E0 : ∀ e, e ∈ oi_entered s → e ∈ c). { intros e X. apply EN; [done|by left]. }
    destruct (IH (aoi_update c s) P (filter (λ x, x ∈ c) K)) as (K' & H1 & H2 & H3 & H4 & H5).
    + done.
    + done.
    + cbn [aoi_update oi_ents]. intros i j a b d e A B D L X Y.
      by apply (ST (S i) (S j) a b d e A B D ltac:(lia)).
    + cbn [aoi_update oi_entered]. intros e d [X|[X1 X2]%elem_of_list_filter]%elem_of_app D.
      * apply EN; [done|by right].
      * apply elem_of_list_lookup in D as [j D]. apply (ST 0 (S (S j)) (oi_ents s) c d e eq_refl eq_refl D ltac:(lia) X1 X2).
    + cbn [aoi_update oi_exited]. rewrite HP, <- app_assoc. f_equiv.
      rewrite (filter_perm (λ e, e ∉ c) _ _ HC), filter_app.
      rewrite (filter_none_in (oi_entered s)) by (intros x X Z; by apply Z, E0). rewrite app_nil_r.
      rewrite (Permutation_app_comm (filter _ K)). apply (split_in K (λ x, x ∈ c)).
    + cbn [aoi_update oi_ents oi_entered]. rewrite (split_in c (λ x, x ∈ oi_ents s)) at 1. rewrite app_assoc. f_equiv.
      rewrite (both_perm c (oi_ents s)) by done. rewrite (filter_perm (λ x, x ∈ c) _ _ HC), filter_app.
      by rewrite (filter_all_in (oi_entered s)).
    + exists K'. split_and!; try done. unfold s'. cbn [foldl]. etrans; [exact H3|]. cbn [aoi_update oi_ents].
      destruct cs as [|c2 cs]; [done|]. rewrite last_cons_cons.
      destruct (last (c2 :: cs)) eqn:LE; [done|]. by apply last_None in LE.
Qed.
Lemma removes_ok l s : foldl (λ s e, aoi_remove e s) s l = Aoi (without (oi_ents s) l) (oi_entered s) (oi_exited s) (oi_count s).
Proof.
  revert s. induction l as [|e l IH]; intros s; cbn [foldl].
  - unfold without. rewrite filter_all_in; [by destruct s|]. intros x _ X. by apply elem_of_nil in X.
  - rewrite IH. cbn [aoi_remove oi_ents oi_entered oi_exited oi_count]. f_equal.
    unfold without. rewrite list_filter_filter. apply list_filter_iff. intros x. rewrite elem_of_cons. tauto.
Qed.

Lemma minus_length l r : length (without l r) ≤ length l.
Proof. apply filter_length. Qed.
Lemma elem_of_without x l r : x ∈ without l r ↔ x ∈ l ∧ x ∉ r.
Proof. unfold without. rewrite elem_of_list_filter. tauto. Qed.

(** ** Counting *)
Section count.
Variable asset : nat → option nat.
Notation mem := (members asset).
Lemma mem_perm a l k : l ≡ₚ k → length (mem a l) = length (mem a k).
Proof. intros E. unfold members. by rewrite E. Qed.
Lemma mem_app a l k : length (mem a (l ++ k)) = length (mem a l) + length (mem a k).
Proof. unfold members. by rewrite filter_app, app_length. Qed.
Lemma mem_cons a e l : length (mem a (e :: l)) = (if decide (asset e = Some a) then 1 else 0) + length (mem a l).
Proof. unfold members. rewrite filter_cons. by case_decide. Qed.
Lemma mem_le a l : length (mem a l) ≤ length l.
Proof. unfold members. apply filter_length. Qed.
Lemma mem_pos a l : 0 < length (mem a l) ↔ ∃ e, e ∈ l ∧ asset e = Some a.
Proof.
  unfold members. split.
  - destruct (filter (λ e, asset e = Some a) l) as [|e k] eqn:E; [cbn; lia|]. intros _.
    assert (X : e ∈ filter (λ e, asset e = Some a) l) by (rewrite E; by left).
    apply elem_of_list_filter in X as [X1 X2]. by exists e.
  - intros (e & X & Y). destruct (filter (λ e, asset e = Some a) l) as [|] eqn:E; [|cbn; lia].
    assert (Z : e ∈ filter (λ e, asset e = Some a) l) by (by apply elem_of_list_filter).
    rewrite E in Z. by apply elem_of_nil in Z.
Qed.
Lemma dec32_ok n : 0 < n → (N.of_nat n < two32)%N → dec32 (N.of_nat n) = N.of_nat (n - 1).
Proof.
  unfold dec32, two32. intros H L. replace (N.of_nat n + 4294967295)%N with (N.of_nat (n - 1) + 1 * 4294967296)%N by lia.
  rewrite N.mod_add by done. apply N.mod_small. lia.
Qed.
Lemma inc32_ok n : (N.of_nat (S n) < two32)%N → inc32 (N.of_nat n) = N.of_nat (S n).
Proof. unfold inc32, two32. intros L. rewrite N.mod_small by lia. lia. Qed.
Lemma upd_count_at a f c b : upd_count a f c b = if decide (a = b) then f (c b) else c b.
Proof. unfold upd_count. destruct (Nat.eqb_spec b a), (decide (a = b)); by subst. Qed.
Lemma elem_of_add_set x a l : x ∈ add_set a l ↔ x ∈ l ∨ x = a.
Proof. unfold add_set. case_decide; [naive_solver|]. rewrite elem_of_app, elem_of_list_singleton. done. Qed.

Lemma exited_loop_ok l : ∀ c assets ents (n : nat → nat),
  (∀ a, c a = N.of_nat (n a)) → (∀ a, (N.of_nat (n a) < two32)%N) → (∀ a, length (mem a l) ≤ n a) →
  ∃ c' assets', exited_loop asset l c assets ents = (c', assets', ents ++ filter (λ e, asset e = None) l) ∧
    (∀ a, c' a = N.of_nat (n a - length (mem a l))) ∧
    (∀ a, a ∈ assets' ↔ a ∈ assets ∨ 0 < length (mem a l)).
Proof.
  induction l as [|e l IH]; intros c assets ents n C B L; cbn [exited_loop].
  - exists c, assets. rewrite filter_nil, app_nil_r. split; [done|]. split.
    + intros a. rewrite C. f_equal. cbn. lia.
    + intros a. cbn. naive_solver lia.
  - destruct (asset e) as [a0|] eqn:E.
    + destruct (IH (upd_count a0 dec32 c) (add_set a0 assets) ents (λ a, if decide (a0 = a) then n a - 1 else n a)) as (c' & as' & H1 & H2 & H3).
      * intros a. rewrite upd_count_at, C. case_decide; [|done]. subst.
        pose proof (L a) as La. rewrite mem_cons, decide_True in La by done. apply dec32_ok; [lia|done].
      * intros a. specialize (B a). case_decide; lia.
      * intros a. specialize (L a). rewrite mem_cons, E in L. repeat case_decide; naive_solver lia.
      * exists c', as'. rewrite filter_cons_False by congruence. split; [done|]. split.
        -- intros a. rewrite H2. f_equal. rewrite mem_cons, E. repeat case_decide; naive_solver lia.
        -- intros a. rewrite H3, elem_of_add_set, mem_cons, E. case_decide; naive_solver lia.
    + destruct (IH c assets (ents ++ [e]) n) as (c' & as' & H1 & H2 & H3); [done|done| |].
      * intros a. specialize (L a). rewrite mem_cons, E in L. case_decide; [done|lia].
      * exists c', as'. rewrite filter_cons_True by done. rewrite H1, <- app_assoc. split; [done|]. split.
        -- intros a. rewrite H2, mem_cons, E. by case_decide.
        -- intros a. rewrite H3, mem_cons, E. by case_decide.
Qed.
Lemma entered_loop_ok l : ∀ c assets ents (n : nat → nat),
  (∀ a, c a = N.of_nat (n a)) → (∀ a, (N.of_nat (n a + length (mem a l)) < two32)%N) → NoDup (ents ++ l) →
  ∃ c' assets', entered_loop asset l c assets ents = Ok (c', assets', ents ++ filter (λ e, asset e = None) l) ∧
    (∀ a, c' a = N.of_nat (n a + length (mem a l))) ∧
    (∀ a, a ∈ assets' ↔ a ∈ assets ∨ 0 < length (mem a l)).
Proof.
  induction l as [|e l IH]; intros c assets ents n C B D; cbn [entered_loop].
  - exists c, assets. rewrite filter_nil, app_nil_r. split; [done|]. split.
    + intros a. rewrite C. f_equal. cbn. lia.
    + intros a. cbn. naive_solver lia.
  - assert (D2 : NoDup (ents ++ l) ∧ e ∉ ents).
    { rewrite <- Permutation_middle in D. apply NoDup_cons in D as [D1 D2]. split; [done|]. intros X. apply D1. apply elem_of_app. by left. }
    destruct (asset e) as [a0|] eqn:E.
    + destruct (IH (upd_count a0 inc32 c) (add_set a0 assets) ents (λ a, if decide (a0 = a) then S (n a) else n a)) as (c' & as' & H1 & H2 & H3).
      * intros a. rewrite upd_count_at, C. case_decide; [|done]. subst.
        pose proof (B a) as La. rewrite mem_cons, decide_True in La by done. apply inc32_ok. lia.
      * intros a. specialize (B a). rewrite mem_cons, E in B. repeat case_decide; naive_solver lia.
      * apply D2.
      * exists c', as'. rewrite filter_cons_False by congruence. split; [done|]. split.
        -- intros a. rewrite H2. f_equal. rewrite mem_cons, E. repeat case_decide; naive_solver lia.
        -- intros a. rewrite H3, elem_of_add_set, mem_cons, E. case_decide; naive_solver lia.
    + rewrite bool_decide_true by apply D2. cbn [require_ mbind res_bind].
      destruct (IH c assets (ents ++ [e]) n) as (c' & as' & H1 & H2 & H3); [done| |by rewrite <- app_assoc|].
      * intros a. specialize (B a). rewrite mem_cons, E in B. case_decide; [done|lia].
      * exists c', as'. rewrite filter_cons_True by done. rewrite H1, <- app_assoc. split; [done|]. split.
        -- intros a. rewrite H2, mem_cons, E. by case_decide.
        -- intros a. rewrite H3, mem_cons, E. by case_decide.
Qed.

(** ** Processing *)
Lemma hear_nonempty l f k :
  hear k (f []) = k → foldl hear k (nonempty l (f l)) = hear k (f l).
Proof. by destruct l. Qed.
Lemma hear_ex k : hear k (ExitedAssets []) = k.
Proof. destruct k. cbn. f_equal. set_solver. Qed.
Lemma hear_de k : hear k (Destroyed []) = k.
Proof. destruct k. cbn. f_equal. set_solver. Qed.
Lemma hear_en k : hear k (EnteredAssets []) = k.
Proof. destruct k. cbn. f_equal. set_solver. Qed.
Lemma hear_cr k : hear k (Created []) = k.
Proof. destruct k. cbn. f_equal. set_solver. Qed.

Lemma process_exited_ok s P K k :
  P ≡ₚ oi_exited s ++ K → NoDup P → (N.of_nat (length P) < two32)%N →
  (∀ a, oi_count s a = N.of_nat (length (mem a P))) → knows asset P k →
  ∃ c' ps, process_exited asset s = (Aoi (oi_ents s) (oi_entered s) [] c', ps) ∧
    (∀ a, c' a = N.of_nat (length (mem a K))) ∧ knows asset K (foldl hear k ps).
Proof.
  intros HP NP LP C [KE KA]. unfold process_exited.
  destruct (oi_exited s) as [|x X0] eqn:EX.
  { exists (oi_count s), []. split; [destruct s; cbn in *; by subst|]. cbn in HP. split.
    - intros a. by rewrite C, (mem_perm a P K HP).
    - cbn [foldl]. split; [intros e|intros a]; [rewrite KE|rewrite KA]; by setoid_rewrite HP. }
  rewrite <- EX in *. clear EX x X0. remember (oi_exited s) as X eqn:EX. clear EX.
  destruct (exited_loop_ok X (oi_count s) [] [] (λ a, length (mem a P))) as (c' & as' & E & H1 & H2).
  { done. } { intros a. pose proof (mem_le a P). lia. }
  { intros a. rewrite (mem_perm a P _ HP), mem_app. lia. }
  rewrite E. cbn [app]. eexists c', _. split; [reflexivity|].
  assert (CK : ∀ a, c' a = N.of_nat (length (mem a K))).
  { intros a. rewrite H1, (mem_perm a P _ HP), mem_app. f_equal. lia. }
  split; [done|]. rewrite foldl_app.
  rewrite (hear_nonempty _ ExitedAssets) by apply hear_ex. rewrite (hear_nonempty _ Destroyed) by apply hear_de.
  assert (DJ : ∀ e, e ∈ X → e ∈ K → False).
  { intros e E1 E2. rewrite HP in NP. apply NoDup_app in NP as (_ & NP & _). by apply (NP e). }
  split; cbn [hear k_ents k_assets].
  - intros e. rewrite elem_of_difference, elem_of_list_to_set, KE, HP, elem_of_app, elem_of_list_filter.
    split; [intros ([[Y|Y] Z] & W); [tauto|done]|]. intros [Y Z]. split; [tauto|]. intros [_ W]. by apply (DJ e).
  - intros a. rewrite elem_of_difference, elem_of_list_to_set, KA, elem_of_list_filter, H2, CK.
    rewrite <- (mem_pos a P), <- (mem_pos a K), (mem_perm a P _ HP), mem_app.
    assert (a ∉ ([] : list nat)) by (by intros ?%elem_of_nil). split.
    + intros [Y Z]. destruct (decide (0 < length (mem a K))); [done|]. exfalso. apply Z. split; [lia|]. right. lia.
    + intros Y. split; [lia|]. intros [Z _]. lia.
Qed.
Lemma process_entered_ok s K k :
  oi_ents s ≡ₚ K ++ oi_entered s → NoDup (oi_ents s) → (N.of_nat (length (oi_ents s)) < two32)%N →
  (∀ a, oi_count s a = N.of_nat (length (mem a K))) → knows asset K k → oi_exited s = [] →
  ∃ c' ps, process_entered asset s = Ok (Aoi (oi_ents s) [] [] c', ps) ∧
    (∀ a, c' a = N.of_nat (length (mem a (oi_ents s)))) ∧ knows asset (oi_ents s) (foldl hear k ps).
Proof.
  intros HP NP LP C [KE KA] EX. unfold process_entered.
  destruct (oi_entered s) as [|x X0] eqn:EE.
  { exists (oi_count s), []. split; [destruct s; cbn in *; by subst|]. rewrite app_nil_r in HP. split.
    - intros a. by rewrite C, (mem_perm a _ K HP).
    - cbn [foldl]. split; [intros e|intros a]; [rewrite KE|rewrite KA]; by setoid_rewrite HP. }
  rewrite <- EE in *. clear EE x X0. rewrite EX. remember (oi_entered s) as X eqn:EE. clear EE.
  destruct (entered_loop_ok X (oi_count s) [] [] (λ a, length (mem a K))) as (c' & as' & E & H1 & H2).
  { done. }
  { intros a. pose proof (mem_le a (oi_ents s)) as Y. rewrite (mem_perm a _ _ HP), mem_app in Y. lia. }
  { cbn [app]. rewrite HP in NP. apply NoDup_app in NP. tauto. }
  rewrite E. cbn [app mbind res_bind]. eexists c', _. split; [reflexivity|].
  split. { intros a. rewrite H1, (mem_perm a _ _ HP), mem_app. done. }
  rewrite foldl_app.
  rewrite (hear_nonempty _ EnteredAssets) by apply hear_en. rewrite (hear_nonempty _ Created) by apply hear_cr.
  split; cbn [hear k_ents k_assets].
  - intros e. rewrite elem_of_union, elem_of_list_to_set, KE, HP, elem_of_app, elem_of_list_filter. tauto.
  - intros a. rewrite elem_of_union, elem_of_list_to_set, KA, H2, <- !mem_pos, (mem_perm a _ _ HP), mem_app.
    assert (a ∉ ([] : list nat)) by (by intros ?%elem_of_nil). split; [intros [?|[?|?]]; [lia|done|lia]|].
    intros. destruct (decide (0 < length (mem a K))); [by left|right; right; lia].
Qed.

Definition settled (s : aoi) (k : known) : Prop :=
  oi_entered s = [] ∧ oi_exited s = [] ∧ NoDup (oi_ents s) ∧ (N.of_nat (length (oi_ents s)) < two32)%N ∧
  (∀ a, oi_count s a = N.of_nat (length (mem a (oi_ents s)))) ∧ knows asset (oi_ents s) k.

Lemma mem_minus a l r : Forall (λ e, asset e = None) r → length (mem a (without l r)) = length (mem a l).
Proof.
  intros F. rewrite Forall_forall in F. unfold without. induction l as [|e l IH]; [done|]. rewrite filter_cons, mem_cons.
  case_decide as D; [by rewrite mem_cons, IH|]. rewrite IH. case_decide as D2; [|done]. exfalso.
  rewrite (F e D) in D2. done.
Qed.
End count.

Lemma loops_ext f g : (∀ e, f e = g e) →
  (∀ l c a n, exited_loop f l c a n = exited_loop g l c a n) ∧ (∀ l c a n, entered_loop f l c a n = entered_loop g l c a n).
Proof.
  intros X. split; induction l as [|e l IH]; intros c a n; cbn; try done; rewrite X; destruct (g e); try done.
  destruct (require_ _); cbn; done.
Qed.
Lemma process_ext f g s : (∀ e, f e = g e) → process f s = process g s.
Proof.
  intros X. destruct (loops_ext f g X) as [X1 X2]. unfold process, process_exited, process_entered.
  destruct (oi_exited s) as [|x l].
  - destruct (oi_entered s); [done|]. by rewrite X2.
  - rewrite X1. destruct (exited_loop g (x :: l) (oi_count s) [] []) as [[c as'] es]. cbn. destruct (oi_entered s); [done|]. by rewrite X2.
Qed.

Lemma round_settled asset r s k :
  settled asset s k → round_ok asset (oi_ents s) r →
  ∃ s' ps, do_round r s = Ok (s', ps) ∧
    settled asset s' (foldl hear (Known (k_ents k ∖ list_to_set (r_removed r)) (k_assets k)) ps) ∧
    oi_ents s' = inside (oi_ents s) r.
Proof.
  intros (S1 & S2 & S3 & S4 & S5 & S6a & S6b) (R1 & R2 & R3 & R4). unfold do_round. rewrite removes_ok, S1, S2.
  rewrite (process_ext (r_asset r) asset) by done.
  set (s0 := Aoi (without (oi_ents s) (r_removed r)) [] [] (oi_count s)).
  destruct (updates_ok (r_updates r) s0 (without (oi_ents s) (r_removed r)) (without (oi_ents s) (r_removed r))) as (K & H1 & H2 & H3 & H4 & H5).
  { by apply NoDup_filter. }
  { eapply Forall_impl; [exact R3|]. by intros c [? _]. }
  { done. } { cbn. by intros e c ?%elem_of_nil. } { done. } { cbn. by rewrite app_nil_r. }
  remember (foldl (λ s c, aoi_update c s) s0 (r_updates r)) as s1 eqn:E1. clear E1.
  unfold process.
  destruct (process_exited_ok asset s1 (without (oi_ents s) (r_removed r)) K (Known (k_ents k ∖ list_to_set (r_removed r)) (k_assets k))) as (c1 & ps & E1 & C1 & K1).
  { done. } { by apply NoDup_filter. } { pose proof (minus_length (oi_ents s) (r_removed r)). lia. }
  { intros a. rewrite H5. cbn. by rewrite S5, mem_minus. }
  { split; cbn [k_ents k_assets].
    - intros e. rewrite elem_of_difference, elem_of_list_to_set, S6a, elem_of_without. tauto.
    - intros a. rewrite S6b, <- !mem_pos. by rewrite mem_minus. }
  rewrite E1.
  assert (L1 : (N.of_nat (length (oi_ents s1)) < two32)%N).
  { rewrite H3. cbn. destruct (last (r_updates r)) as [c|] eqn:L; cbn.
    - apply last_Some_elem_of in L. rewrite Forall_forall in R3. apply (R3 c L).
    - pose proof (minus_length (oi_ents s) (r_removed r)). lia. }
  destruct (process_entered_ok asset (Aoi (oi_ents s1) (oi_entered s1) [] c1) K
     (foldl hear (Known (k_ents k ∖ list_to_set (r_removed r)) (k_assets k)) ps)) as (c2 & qs & E2 & C2 & K2); try done.
  rewrite E2. cbn [mbind res_bind oi_ents] in *. eexists _, _. split; [reflexivity|]. rewrite foldl_app. split.
  - unfold settled. cbn [oi_ents oi_entered oi_exited oi_count]. split_and!; done.
  - cbn [oi_ents]. rewrite H3. done.
Qed.
Lemma rounds_settled asset rs : ∀ s k, settled asset s k → rounds_ok asset (oi_ents s) rs →
  ∃ s' k', run_rounds rs s k = Ok (s', k') ∧ settled asset s' k' ∧ oi_ents s' = inside_all (oi_ents s) rs.
Proof.
  induction rs as [|r rs IH]; intros s k S R; cbn [run_rounds].
  - by exists s, k.
  - destruct R as [R1 R2]. destruct (round_settled asset r s k S R1) as (s1 & ps & E & S1 & I1).
    rewrite E. cbn [mbind res_bind]. rewrite <- I1 in R2. destruct (IH _ _ S1 R2) as (s2 & k2 & E2 & S2 & I2).
    exists s2, k2. split; [done|]. split; [done|]. rewrite I2, I1. done.
Qed.
Lemma init_settled asset : settled asset aoi_init (Known ∅ ∅).
Proof.
  unfold settled. cbn. split_and!; try done; [constructor|]. split; [set_solver|].
  intros a. split; [set_solver|]. intros (e & X & _). by apply elem_of_nil in X.
Qed.
