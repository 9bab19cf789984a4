(** Collecting and applying snapshots. *)
From Verif Require Import Outcome SnapModel SnapSpec S11nSpec S11nProofs S11nMore SnapProofs.
Local Open Scope nat_scope.

(** ** Collecting *)
Definition add_ent (e : N) (l : list N) : list N := if decide (e ∈ l) then l else l ++ [e].
Definition idx_rel (ents : list N) (i e : N) : Prop := (i < 256)%N ∧ ents !! N.to_nat i = Some e.
Lemma find_index_Some e l i : find_index e l = Some i → l !! i = Some e.
Proof.
  unfold find_index. intros ([j x] & F & [= <-])%fmap_Some. apply list_find_Some in F as (F & <- & _). done.
Qed.
Lemma find_index_None e l : find_index e l = None → e ∉ l.
Proof.
  unfold find_index. intros F%fmap_None. apply list_find_None in F. intros X.
  rewrite Forall_forall in F. by apply (F e X).
Qed.
Lemma idx_rel_add ents e i x : idx_rel ents i x → idx_rel (add_ent e ents) i x.
Proof.
  intros [H1 H2]. split; [done|]. unfold add_ent. case_decide; [done|].
  apply lookup_app_l_Some. done.
Qed.
Lemma insert_single_ok net (src : registry) e ents p v :
  src e (p_comp p) = Some v → net e = true → length (add_ent e ents) ≤ 256 →
  ∃ i, insert_single net src e ents p = Ok (add_ent e ents,
      Pool (p_comp p) (p_ty p) (p_idx p ++ [i]) (if is_empty (p_ty p) then p_vals p else p_vals p ++ [v])) ∧
    idx_rel (add_ent e ents) i e.
Proof.
  intros S NE L. unfold insert_single. rewrite S, NE. cbn [assert_ mbind res_bind].
  destruct (find_index e ents) as [i|] eqn:F.
  - apply find_index_Some in F. unfold add_ent in *. rewrite decide_True in * by (by eapply elem_of_list_lookup_2).
    exists (N.of_nat i mod 256)%N. split; [done|]. apply lookup_lt_Some in F as I.
    rewrite N.mod_small by lia. split; [lia|]. by rewrite Nat2N.id.
  - apply find_index_None in F. unfold add_ent in *. rewrite decide_False in * by done.
    rewrite app_length in L. cbn in L.
    exists (N.of_nat (length ents) mod 256)%N. split; [done|].
    rewrite N.mod_small by lia. split; [lia|]. rewrite Nat2N.id. by apply list_lookup_middle.
Qed.
(** The pools after an insertion. *)
Lemma insert_pools_ok net (src : registry) t e c ents ps v :
  src e c = Some v → net e = true → length (add_ent e ents) ≤ 256 → NoDup (p_comp <$> ps) →
  ∃ i, idx_rel (add_ent e ents) i e ∧
  let ext p := Pool (p_comp p) (p_ty p) (p_idx p ++ [i]) (if is_empty (p_ty p) then p_vals p else p_vals p ++ [v]) in
  insert_pools net src t e c ents ps = Ok (add_ent e ents,
    if decide (c ∈ p_comp <$> ps) then (λ p, if (p_comp p =? c)%N then ext p else p) <$> ps
    else ps ++ [ext (Pool c t [] [])]).
Proof.
  intros S NE L. induction ps as [|p ps IH]; intros N.
  - destruct (insert_single_ok net src e ents (Pool c t [] []) v S NE L) as (i & E & R).
    exists i. split; [done|]. cbn [insert_pools]. rewrite E. cbn [mbind res_bind].
    rewrite decide_False by (by intros ?%elem_of_nil). done.
  - rewrite fmap_cons in N. apply NoDup_cons in N as [N1 N2]. cbn [insert_pools].
    destruct (N.eqb_spec (p_comp p) c) as [E|E].
    + subst c. destruct (insert_single_ok net src e ents p v S NE L) as (i & E & R).
      exists i. split; [done|]. rewrite E. cbn [mbind res_bind]. rewrite fmap_cons.
      rewrite decide_True by (by left). rewrite fmap_cons, N.eqb_refl. do 3 f_equal.
      symmetry. rewrite <- (list_fmap_id ps) at 2. apply list_fmap_ext. intros k q Q.
      destruct (N.eqb_spec (p_comp q) (p_comp p)) as [E2|]; [|done].
      exfalso. apply N1. rewrite <- E2. apply elem_of_list_fmap. exists q. split; [done|]. by eapply elem_of_list_lookup_2.
    + destruct (IH N2) as (i & R & E2). exists i. split; [done|]. rewrite E2. cbn [mbind res_bind].
      do 2 f_equal. rewrite fmap_cons. case_decide as D.
      * rewrite decide_True by (by right). rewrite fmap_cons. rewrite (proj2 (N.eqb_neq _ _)) by done. done.
      * rewrite decide_False; [done|]. by intros [->|?]%elem_of_cons.
Qed.

Section collect.
Variables (klt : val → val → bool) (cts : list ty) (net : N → bool) (src : registry).
Definition inv (done : list (N * N)) (s : snap) : Prop :=
  NoDup (s_ents s) ∧ (∀ e, e ∈ s_ents s ↔ e ∈ fst <$> done) ∧ NoDup (p_comp <$> s_pools s) ∧
  (∀ p, p ∈ s_pools s → cts !! N.to_nat (p_comp p) = Some (p_ty p) ∧
     Forall2 (idx_rel (s_ents s)) (p_idx p) (reqs_of (p_comp p) done) ∧
     if is_empty (p_ty p) then p_vals p = []
     else Forall2 (λ e v, src e (p_comp p) = Some v) (reqs_of (p_comp p) done) (p_vals p)) ∧
  (∀ q, q ∈ done → q.2 ∈ p_comp <$> s_pools s).
(** A request that can be served. *)
Definition req_ok (q : N * N) : Prop :=
  net q.1 = true ∧ ∃ t v, cts !! N.to_nat q.2 = Some t ∧ src q.1 q.2 = Some v.

Lemma reqs_of_app c a b : reqs_of c (a ++ b) = reqs_of c a ++ reqs_of c b.
Proof. unfold reqs_of. by rewrite filter_app, fmap_app. Qed.
Lemma reqs_of_same e c : reqs_of c [(e, c)] = [e].
Proof. unfold reqs_of. by rewrite filter_cons_True, filter_nil. Qed.
Lemma reqs_of_other e c c' : c ≠ c' → reqs_of c [(e, c')] = [].
Proof. intros H. unfold reqs_of. rewrite filter_cons_False, filter_nil; [done|]. cbn. congruence. Qed.
Lemma reqs_of_none c l : (∀ q, q ∈ l → q.2 ≠ c) → reqs_of c l = [].
Proof.
  intros H. unfold reqs_of. induction l as [|q l IH]; [done|]. rewrite filter_cons_False by (apply H; by left).
  apply IH. intros q' Hq'. apply H. by right.
Qed.
Lemma elem_reqs_of e c l : e ∈ reqs_of c l ↔ (e, c) ∈ l.
Proof.
  unfold reqs_of. rewrite elem_of_list_fmap. setoid_rewrite elem_of_list_filter. split.
  - intros ([e' c'] & -> & H1 & H2). cbn in *. by subst.
  - intros H. by exists (e, c).
Qed.

Lemma NoDup_add e l : NoDup l → NoDup (add_ent e l).
Proof.
  intros H. unfold add_ent. case_decide; [done|]. apply NoDup_app. split_and!; [done| |apply NoDup_singleton].
  intros x X ->%elem_of_list_singleton. done.
Qed.
Lemma elem_of_add x e l : x ∈ add_ent e l ↔ x ∈ l ∨ x = e.
Proof. unfold add_ent. case_decide; [naive_solver|]. rewrite elem_of_app, elem_of_list_singleton. done. Qed.
Lemma distinct_bound (l k : list N) : NoDup l → (∀ e, e ∈ l → e ∈ k) → length l ≤ length (remove_dups k).
Proof.
  intros N H. apply submseteq_length, NoDup_submseteq; [done|]. intros e E. apply elem_of_remove_dups. auto.
Qed.

Lemma collect_ok reqs : ∀ done s,
  inv done s → Forall req_ok reqs → length (remove_dups (fst <$> done ++ reqs)) ≤ 256 →
  ∃ s', collect cts net src reqs s = Ok s' ∧ inv (done ++ reqs) s' ∧ s_time s' = s_time s.
Proof.
  induction reqs as [|[e c] reqs IH]; intros done s I F L; cbn [collect].
  - exists s. by rewrite app_nil_r.
  - apply Forall_cons in F as [(NE & t & v & T & V) F]. cbn [fst snd] in *. rewrite T. cbn [opt_res mbind res_bind].
    destruct I as (I1 & I2 & I3 & I4 & I5).
    assert (LE : length (add_ent e (s_ents s)) ≤ 256).
    { etrans; [|exact L]. apply distinct_bound; [by apply NoDup_add|].
      intros x [X| ->]%elem_of_add; rewrite fmap_app, elem_of_app; [left; by apply I2|right; by left]. }
    destruct (insert_pools_ok net src t e c (s_ents s) (s_pools s) v V NE LE I3) as (i & R & E).
    cbn zeta in E. rewrite E. cbn [mbind res_bind].
    replace (done ++ (e, c) :: reqs) with ((done ++ [(e, c)]) ++ reqs) in * by (by rewrite <- app_assoc).
    match goal with |- context [collect _ _ _ _ ?s1] => destruct (IH (done ++ [(e, c)]) s1) as (s' & C1 & C2 & C3) end;
      [|done|done|by exists s'].
    assert (EXT : ∀ p, cts !! N.to_nat (p_comp p) = Some (p_ty p) ∧
       Forall2 (idx_rel (s_ents s)) (p_idx p) (reqs_of (p_comp p) done) ∧
       (if is_empty (p_ty p) then p_vals p = []
        else Forall2 (λ e v, src e (p_comp p) = Some v) (reqs_of (p_comp p) done) (p_vals p)) →
       p_comp p = c →
       Forall2 (idx_rel (add_ent e (s_ents s))) (p_idx p ++ [i]) (reqs_of (p_comp p) (done ++ [(e, c)])) ∧
       (if is_empty (p_ty p) then (if is_empty (p_ty p) then p_vals p else p_vals p ++ [v]) = []
        else Forall2 (λ e v, src e (p_comp p) = Some v) (reqs_of (p_comp p) (done ++ [(e, c)]))
              (if is_empty (p_ty p) then p_vals p else p_vals p ++ [v]))).
    { intros p (P1 & P2 & P3) Pc. rewrite reqs_of_app, Pc, reqs_of_same. rewrite Pc in *. split.
      - apply Forall2_app; [|by constructor]. eapply Forall2_impl; [exact P2|]. intros. by apply idx_rel_add.
      - destruct (is_empty (p_ty p)); [done|]. apply Forall2_app; [done|]. by constructor. }
    unfold inv. cbn [s_ents s_pools]. split_and!.
    + by apply NoDup_add.
    + intros x. rewrite elem_of_add, I2, fmap_app, elem_of_app. cbn. by rewrite elem_of_list_singleton.
    + case_decide as D.
      * rewrite <- list_fmap_compose.
        rewrite (list_fmap_ext _ p_comp (s_pools s)); [done|]. intros k p _. cbn. by destruct (p_comp p =? c)%N.
      * rewrite fmap_app. apply NoDup_app. split_and!; [done| |apply NoDup_singleton].
        intros x X. cbn. intros ->%elem_of_list_singleton. done.
    + intros p' P'. case_decide as D.
      * apply elem_of_list_fmap in P' as (p & -> & P). pose proof (I4 p P) as J.
        destruct (N.eqb_spec (p_comp p) c) as [Ec|Ec]; cbn [p_comp p_ty p_idx p_vals].
        -- split; [apply J|]. by apply EXT.
        -- destruct J as (J1 & J2 & J3). split; [done|].
           rewrite reqs_of_app, (reqs_of_other e (p_comp p) c), app_nil_r by done. split; [|done].
           eapply Forall2_impl; [exact J2|]. intros. by apply idx_rel_add.
      * apply elem_of_app in P' as [P|P].
        -- destruct (I4 p' P) as (J1 & J2 & J3). split; [done|].
           assert (p_comp p' ≠ c). { intros <-. apply D. apply elem_of_list_fmap. by exists p'. }
           rewrite reqs_of_app, (reqs_of_other e (p_comp p') c), app_nil_r by done. split; [|done].
           eapply Forall2_impl; [exact J2|]. intros. by apply idx_rel_add.
        -- apply elem_of_list_singleton in P as ->. cbn [p_comp p_ty p_idx p_vals]. split; [done|].
           assert (Z : reqs_of c done = []).
           { apply reqs_of_none. intros q Q <-. apply D. by apply I5. }
           rewrite reqs_of_app, Z, reqs_of_same. cbn [app].
           split; [by constructor|]. destruct (is_empty t); [done|]. by constructor.
    + intros q Q. assert (X : q.2 ∈ p_comp <$> s_pools s ∨ q.2 = c).
      { apply elem_of_app in Q as [Q| ->%elem_of_list_singleton]; [left; by apply I5|by right]. }
      case_decide as D.
      * rewrite <- list_fmap_compose.
        rewrite (list_fmap_ext _ p_comp (s_pools s)); [destruct X as [X| ->]; done|].
        intros k p _. cbn. by destruct (p_comp p =? c)%N.
      * rewrite fmap_app, elem_of_app. cbn. rewrite elem_of_list_singleton. done.
Qed.
Lemma inv_init time : inv [] (Snap time [] []).
Proof.
  unfold inv. cbn [s_ents s_pools fmap list_fmap]. split_and!; [constructor|done|constructor|intros p X|intros q X]; by apply elem_of_nil in X.
Qed.
End collect.

(** ** Applying *)
Section apply.
Variables (merge : N → val → val → val) (mapc : N → val → val) (emap : N → option N) (valid : N → bool).
Notation app_entries := (apply_entries merge mapc emap valid).
Definition hit (l c : N) (e : N) (comp : N) : Prop := c = comp ∧ emap e = Some l ∧ valid l = true.

Lemma set_comp_same (r : registry) l c v l' c' x : r l c = Some x → v = x → set_comp r l c v l' c' = r l' c'.
Proof.
  intros H ->. unfold set_comp. destruct (N.eqb_spec l' l), (N.eqb_spec c' c); cbn; congruence.
Qed.
Lemma set_comp_at (r : registry) l c v : set_comp r l c v l c = Some v.
Proof. unfold set_comp. by rewrite !N.eqb_refl. Qed.
Lemma set_comp_ne (r : registry) l c v l' c' : l' ≠ l ∨ c' ≠ c → set_comp r l c v l' c' = r l' c'.
Proof.
  unfold set_comp. destruct (N.eqb_spec l' l), (N.eqb_spec c' c); cbn; [|done..]. intros [?|?]; congruence.
Qed.
Lemma apply_entry_ok m ents p (r : registry) i ix e v :
  p_idx p !! i = Some ix → ents !! N.to_nat ix = Some e → (is_empty (p_ty p) = false → p_vals p !! i = Some v) →
  ∃ r', apply_entry merge mapc emap valid m ents p r i = Ok r' ∧
    (∀ l, emap e = Some l → valid l = true →
       r' l (p_comp p) = arrived m (p_ty p) (λ x, merge (p_comp p) x (mapc (p_comp p) v)) (mapc (p_comp p) v) (r l (p_comp p))) ∧
    (∀ l c, ¬ hit l c e (p_comp p) → r' l c = r l c).
Proof.
  intros I E V. unfold apply_entry. rewrite I. cbn [opt_res mbind res_bind]. rewrite E. cbn [opt_res mbind res_bind].
  destruct (emap e) as [l|] eqn:M.
  2: { exists r. split; [done|]. split; [done|]. done. }
  destruct (valid l) eqn:W.
  2: { exists r. split; [done|]. split; [intros ? [= <-]; congruence|done]. }
  assert (MISS : ∀ v l' c', ¬ hit l' c' e (p_comp p) → set_comp r l (p_comp p) v l' c' = r l' c').
  { intros v' l' c' H. apply set_comp_ne. destruct (decide (l' = l)) as [->|]; [|by left]. right.
    intros ->. apply H. unfold hit. by rewrite M. }
  destruct (is_empty (p_ty p)) eqn:Em.
  - destruct m, (r l (p_comp p)) as [x|] eqn:X; (eexists; split; [done|]; split; [intros ? [= <-] _|]).
    all: try rewrite X; unfold arrived; try rewrite Em; try done; try (intros; by apply MISS).
    by rewrite set_comp_at.
  - specialize (V eq_refl). rewrite V. cbn [opt_res mbind res_bind].
    destruct m, (r l (p_comp p)) as [x|] eqn:X; (eexists; split; [done|]; split; [intros ? [= <-] _|]).
    all: try rewrite X; unfold arrived; try rewrite Em; try rewrite set_comp_at; try done; try (intros; by apply MISS).
Qed.

(** One pool: [L] lists, per position, the entity and its value. *)
Definition entry_at (ents : list N) (p : pool) (i : nat) (x : N * val) : Prop :=
  ∃ ix, p_idx p !! i = Some ix ∧ ents !! N.to_nat ix = Some x.1 ∧ (is_empty (p_ty p) = false → p_vals p !! i = Some x.2).
Lemma apply_entries_ok m ents p is (L : list (N * val)) : Forall2 (entry_at ents p) is L →
  NoDup (fst <$> L) → (∀ a b l, emap a = Some l → emap b = Some l → a = b) → ∀ (r : registry),
  ∃ r', app_entries m ents p is r = Ok r' ∧
    (∀ e v l, (e, v) ∈ L → emap e = Some l → valid l = true →
       r' l (p_comp p) = arrived m (p_ty p) (λ x, merge (p_comp p) x (mapc (p_comp p) v)) (mapc (p_comp p) v) (r l (p_comp p))) ∧
    (∀ l c, (∀ e, e ∈ fst <$> L → ¬ hit l c e (p_comp p)) → r' l c = r l c).
Proof.
  intros F N INJ. induction F as [|i [e v] is L (ix & X1 & X2 & X3) F IH]; intros r; cbn [apply_entries].
  - exists r. split; [done|]. split; [by intros ??? ?%elem_of_nil|done].
  - cbn in N. apply NoDup_cons in N as [N1 N2]. cbn [fst snd] in *.
    destruct (apply_entry_ok m ents p r i ix e v X1 X2 X3) as (r1 & E1 & H1 & M1).
    rewrite E1. cbn [mbind res_bind]. destruct (IH N2 r1) as (r2 & E2 & H2 & M2).
    exists r2. split; [done|]. split.
    + intros e' v' l [[= -> ->]|IN]%elem_of_cons M W.
      * rewrite M2; [by apply H1|]. intros e2 IN (_ & M' & _). apply N1. by rewrite (INJ e e2 l).
      * rewrite (H2 e' v' l) by done. f_equal. apply M1. intros (_ & M' & _). apply N1.
        rewrite (INJ e e' l) by done. apply elem_of_list_fmap. by exists (e', v').
    + intros l c H. rewrite M2; [apply M1; apply H; by left|]. intros e' IN. apply H. by right.
Qed.

Variables (klt : val → val → bool) (cts : list ty) (src : registry).
Lemma pool_entries ents p (es : list N) :
  Forall2 (idx_rel ents) (p_idx p) es →
  (if is_empty (p_ty p) then p_vals p = [] else Forall2 (λ e v, src e (p_comp p) = Some v) es (p_vals p)) →
  (∀ e, e ∈ es → ∃ v, src e (p_comp p) = Some v) →
  ∃ L, Forall2 (entry_at ents p) (seq 0 (length (p_idx p))) L ∧ fst <$> L = es ∧
    (∀ e v, (e, v) ∈ L → src e (p_comp p) = Some v).
Proof.
  intros F V S. exists ((λ e, (e, default VUnit (src e (p_comp p)))) <$> es). split_and!.
  - apply Forall2_same_length_lookup_2.
    { by rewrite seq_length, fmap_length, (Forall2_length _ _ _ F). }
    intros i j [e v] J X. apply lookup_seq in J as [-> J]. cbn [Nat.add] in *.
    rewrite list_lookup_fmap in X. apply fmap_Some in X as (e' & X & [= -> ->]).
    destruct (lookup_lt_is_Some_2 (p_idx p) i J) as [ix IX].
    destruct (Forall2_lookup_lr _ _ _ _ _ _ F IX X) as [R1 R2].
    exists ix. split; [done|]. split; [done|]. intros Em. rewrite Em in V. cbn [snd].
    destruct (Forall2_lookup_l _ _ _ _ _ V X) as (v & V1 & V2). by rewrite V2.
  - rewrite <- list_fmap_compose. apply list_fmap_id.
  - intros e v (e' & [= -> ->] & X)%elem_of_list_fmap. destruct (S e' X) as [v ->]. done.
Qed.

Lemma NoDup_reqs_of c reqs : NoDup reqs → NoDup (reqs_of c reqs).
Proof.
  intros N. unfold reqs_of. apply NoDup_fmap_2_strong; [|by apply NoDup_filter].
  intros [e1 c1] [e2 c2] [H1 _]%elem_of_list_filter [H2 _]%elem_of_list_filter. cbn in *. congruence.
Qed.
Lemma apply_pool_ok m ents reqs p (r : registry) :
  NoDup reqs → (∀ a b l, emap a = Some l → emap b = Some l → a = b) →
  Forall2 (idx_rel ents) (p_idx p) (reqs_of (p_comp p) reqs) →
  (if is_empty (p_ty p) then p_vals p = [] else Forall2 (λ e v, src e (p_comp p) = Some v) (reqs_of (p_comp p) reqs) (p_vals p)) →
  (∀ q, q ∈ reqs → ∃ v, src q.1 q.2 = Some v) →
  ∃ r', apply_pool merge mapc emap valid m ents p r = Ok r' ∧
    (∀ e v l, (e, p_comp p) ∈ reqs → src e (p_comp p) = Some v → emap e = Some l → valid l = true →
       r' l (p_comp p) = arrived m (p_ty p) (λ x, merge (p_comp p) x (mapc (p_comp p) v)) (mapc (p_comp p) v) (r l (p_comp p))) ∧
    (∀ l c, (∀ e, (e, p_comp p) ∈ reqs → ¬ hit l c e (p_comp p)) → r' l c = r l c).
Proof.
  intros N INJ F V S.
  destruct (pool_entries ents p _ F V) as (L & L1 & L2 & L3).
  { intros e E%elem_reqs_of. by apply (S _ E). }
  destruct (apply_entries_ok m ents p _ L L1) with (r := r) as (r' & E & H & M); [rewrite L2; by apply NoDup_reqs_of|done|].
  assert (RES : (∀ e v l, (e, p_comp p) ∈ reqs → src e (p_comp p) = Some v → emap e = Some l → valid l = true →
       r' l (p_comp p) = arrived m (p_ty p) (λ x, merge (p_comp p) x (mapc (p_comp p) v)) (mapc (p_comp p) v) (r l (p_comp p))) ∧
    (∀ l c, (∀ e, (e, p_comp p) ∈ reqs → ¬ hit l c e (p_comp p)) → r' l c = r l c)).
  { split.
    - intros e v l Q SV ME W. apply (H e v l); [|done..].
      apply elem_reqs_of in Q. rewrite <- L2 in Q. apply elem_of_list_fmap in Q as ([e' v'] & -> & Q). cbn in *.
      pose proof (L3 _ _ Q). by replace v with v' by congruence.
    - intros l c X. apply M. intros e Q. apply X. apply elem_reqs_of. by rewrite <- L2. }
  unfold apply_pool. destruct m; [|by exists r'].
  destruct (is_empty (p_ty p)) eqn:Em.
  - exists r. split; [done|]. split; [|done]. intros e v l Q SV ME W. unfold arrived. rewrite Em.
    by destruct (r l (p_comp p)).
  - rewrite (proj2 (Nat.eqb_eq _ _)); [|by rewrite (Forall2_length _ _ _ F), (Forall2_length _ _ _ V)].
    cbn [assert_ mbind res_bind]. by exists r'.
Qed.
Lemma apply_pools_ok m ents reqs ps : ∀ (r : registry),
  NoDup reqs → (∀ a b l, emap a = Some l → emap b = Some l → a = b) → NoDup (p_comp <$> ps) →
  (∀ p, p ∈ ps → Forall2 (idx_rel ents) (p_idx p) (reqs_of (p_comp p) reqs) ∧
    if is_empty (p_ty p) then p_vals p = [] else Forall2 (λ e v, src e (p_comp p) = Some v) (reqs_of (p_comp p) reqs) (p_vals p)) →
  (∀ q, q ∈ reqs → ∃ v, src q.1 q.2 = Some v) →
  ∃ r', apply_pools merge mapc emap valid m ents ps r = Ok r' ∧
    (∀ p e v l, p ∈ ps → (e, p_comp p) ∈ reqs → src e (p_comp p) = Some v → emap e = Some l → valid l = true →
       r' l (p_comp p) = arrived m (p_ty p) (λ x, merge (p_comp p) x (mapc (p_comp p) v)) (mapc (p_comp p) v) (r l (p_comp p))) ∧
    (∀ l c, (c ∉ p_comp <$> ps ∨ ∀ e, (e, c) ∈ reqs → ¬ hit l c e c) → r' l c = r l c).
Proof.
  induction ps as [|p ps IH]; intros r N INJ NC P S; cbn [apply_pools].
  - exists r. split; [done|]. split; [by intros ???? ?%elem_of_nil|done].
  - rewrite fmap_cons in NC. apply NoDup_cons in NC as [NC1 NC2].
    destruct (P p) as [P1 P2]; [by left|].
    destruct (apply_pool_ok m ents reqs p r N INJ P1 P2 S) as (r1 & E1 & H1 & M1).
    rewrite E1. cbn [mbind res_bind]. destruct (IH r1 N INJ NC2) as (r2 & E2 & H2 & M2).
    { intros q Q. apply P. by right. } { done. }
    exists r2. split; [done|]. split.
    + intros q e v l [->|Q]%elem_of_cons R SV ME W.
      * rewrite M2 by (by left). by apply (H1 e v l).
      * rewrite (H2 q e v l) by done. f_equal. apply M1. intros e' _ (E & _). apply NC1. rewrite <- E.
        apply elem_of_list_fmap. by exists q.
    + intros l c H. rewrite M2.
      * apply M1. intros e R (E & X). subst c. destruct H as [H|H]; [by apply H; left|]. by apply (H e R).
      * destruct H as [H|H]; [|by right]. left. intros X. apply H. by right.
Qed.
End apply.

(** ** Sizes *)
Section size.
Variables (klt : val → val → bool) (cts : list ty) (net : N → bool) (src : registry).
Definition wire_size (t : ty) (c e : N) : nat := match src e c with Some v => length (concat (wr t v)) | None => 0 end.
Definition pool_size (t : ty) (c : N) (es : list N) : nat :=
  1 + length es + (if is_empty t then 0 else sum_list (wire_size t c <$> es)).
Lemma concat_concat_length t (l : list val) : length (concat (concat (wr t <$> l))) = sum_list ((λ v, length (concat (wr t v))) <$> l).
Proof. induction l as [|x l IH]; [done|]. rewrite !fmap_cons. cbn [concat sum_list]. by rewrite concat_app, app_length, IH. Qed.
Lemma ints_length n (l : list N) : length (concat (le_bytes n <$> l)) = length l * n.
Proof. induction l as [|x l IH]; [done|]. rewrite fmap_cons. cbn [concat length]. rewrite app_length, le_bytes_length, IH. lia. Qed.
Lemma wr_data_size p es :
  length (p_idx p) = length es →
  (if is_empty (p_ty p) then p_vals p = [] else Forall2 (λ e v, src e (p_comp p) = Some v) es (p_vals p)) →
  length (concat (wr_data p)) = pool_size (p_ty p) (p_comp p) es.
Proof.
  intros L V. unfold wr_data, pool_size. cbn [concat]. rewrite app_length, le_bytes_length, concat_app, app_length, ints_length, L.
  destruct (is_empty (p_ty p)); [cbn; lia|]. rewrite concat_concat_length.
  assert (wire_size (p_ty p) (p_comp p) <$> es = (λ v, length (concat (wr (p_ty p) v))) <$> p_vals p) as ->; [|lia].
  clear L. induction V as [|e v es vs SV V IH]; [done|]. rewrite !fmap_cons, IH. unfold wire_size at 1. by rewrite SV.
Qed.
Lemma inv_snap_ok reqs s :
  inv cts src reqs s → (s_time s < 256 ^ 8)%N → length cts ≤ limit16 →
  Forall (λ q, (q.1 < 256 ^ 4)%N ∧ ∀ t v, cts !! N.to_nat q.2 = Some t → src q.1 q.2 = Some v → travels klt t v) reqs →
  length (remove_dups (fst <$> reqs)) ≤ 256 →
  (∀ c, length (reqs_of c reqs) ≤ 255) →
  (∀ c t, cts !! N.to_nat c = Some t → pool_size t c (reqs_of c reqs) ≤ limit16) →
  snap_ok klt cts s.
Proof.
  intros (I1 & I2 & I3 & I4 & I5) T LC F LE LP LS. unfold snap_ok. split_and!.
  - done.
  - transitivity 256; [|apply Nat.leb_le; by vm_compute]. etrans; [|exact LE]. apply distinct_bound; [done|]. intros e. apply I2.
  - apply Forall_forall. intros e E%I2. apply elem_of_list_fmap in E as (q & -> & Q).
    rewrite Forall_forall in F. by apply F.
  - etrans; [|exact LC]. rewrite <- (fmap_length p_comp), <- (fmap_length N.to_nat), <- (seq_length (length cts) 0).
    apply submseteq_length, NoDup_submseteq.
    + apply NoDup_fmap_2; [|done]. intros ?? ?. lia.
    + intros i (c & -> & C)%elem_of_list_fmap. apply elem_of_list_fmap in C as (p & -> & P).
      destruct (I4 p P) as (X & _). apply lookup_lt_Some in X. apply elem_of_seq. lia.
  - apply Forall_forall. intros p P. destruct (I4 p P) as (P1 & P2 & P3). unfold pool_ok.
    pose proof (Forall2_length _ _ _ P2) as LEN. split_and!.
    + apply lookup_lt_Some in P1. apply N2Nat.inj_iff in LC || idtac. unfold limit16 in LC. lia.
    + done.
    + rewrite LEN. apply LP.
    + apply Forall_forall. intros i (k & K)%elem_of_list_lookup.
      destruct (Forall2_lookup_l _ _ _ _ _ P2 K) as (e & _ & [B _]). done.
    + destruct (is_empty (p_ty p)); [done|]. split; [by rewrite LEN, (Forall2_length _ _ _ P3)|].
      apply Forall_forall. intros v (k & K)%elem_of_list_lookup.
      destruct (Forall2_lookup_r _ _ _ _ _ P3 K) as (e & E & SV). apply elem_of_list_lookup_2, elem_reqs_of in E.
      rewrite Forall_forall in F. by apply (F _ E).
    + rewrite (wr_data_size p (reqs_of (p_comp p) reqs)) by done. by apply LS.
Qed.
End size.
