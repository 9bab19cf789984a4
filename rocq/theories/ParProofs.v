(** Proofs for C52. *)
From Verif Require Import Outcome ParModel ParSpec.

Section Proofs.
Context {V : Type}.
Notation mem := (gmap nat V).
Variables (k : code V) (isles : list nat) (own : nat → gset nat) (shared : gset nat).
Variables n p : nat.
Lemma integrate_local i es : (∀ e, e ∈ es → e ∈ own i) → local_to (own i) shared (integrate k es).
Proof.
  induction es as [|e es IH]; intros He.
  - split; [done|]. intros m m' A e He'. apply A. set_solver.
  - destruct IH as [F1 F2]; [set_solver|]. split.
    + intros m x Hx. cbn. change (foldl _ ?a es) with (integrate k es a). rewrite F1 by done.
      apply lookup_alter_ne. intros ->. apply Hx, He. set_solver.
    + intros m m' A. cbn. change (foldl _ ?a es) with (integrate k es a). apply F2.
      intros x Hx. destruct (decide (x = e)) as [->|Hne].
      * rewrite !lookup_alter. f_equal. by apply A.
      * rewrite !lookup_alter_ne by done. by apply A.
Qed.

Hypothesis Sep : separate k isles own shared.
Definition N : nat := Nat.max 1 (u8 n).
Definition P : nat := u8 p.

Notation see i := (own i ∪ shared).

Lemma agree_refl S (m : mem) : agree S m m. Proof. done. Qed.
Lemma agree_sym S (m m' : mem) : agree S m m' → agree S m' m.
Proof. intros H e He. symmetry. by apply H. Qed.
Lemma agree_trans S (m m' m'' : mem) : agree S m m' → agree S m' m'' → agree S m m''.
Proof. intros H H' e He. rewrite H by done. by apply H'. Qed.

(** A local function keeps agreement on what its island sees. *)
Lemma local_see i (f : mem → mem) m m' :
  i ∈ isles → local_to (own i) shared f → agree (see i) m m' → agree (see i) (f m) (f m').
Proof.
  intros Hi [F1 F2] A e [He|He]%elem_of_union; [by apply F2|].
  pose proof (sep_shared _ _ _ _ Sep i Hi) as D.
  rewrite !F1 by set_solver. apply A. set_solver.
Qed.
(** … and does not touch what another island sees. *)
Lemma local_other i j (f : mem → mem) m :
  i ∈ isles → j ∈ isles → i ≠ j → local_to (own j) shared f → agree (see i) (f m) m.
Proof.
  intros Hi Hj Hij [F1 _] e He. apply F1.
  pose proof (sep_own _ _ _ _ Sep i j Hi Hj Hij). pose proof (sep_shared _ _ _ _ Sep j Hj).
  set_solver.
Qed.

Lemma integrate_app es es' m : integrate k (es ++ es') m = integrate k es' (integrate k es m).
Proof. apply foldl_app. Qed.
Lemma integrate_perm es es' m : es ≡ₚ es' → integrate k es m = integrate k es' m.
Proof.
  intros E. revert m. unfold integrate. induction E as [|e es es' E IH|e e' es|es es' es'' E1 IH1 E2 IH2]; intros m; cbn.
  - done.
  - apply IH.
  - f_equal. destruct (decide (e = e')) as [->|]; [done|]. by apply alter_commute.
  - by rewrite IH1.
Qed.
Lemma nodes_local i es : i ∈ isles → (∀ e, e ∈ es → e ∈ k_nodes k i) → local_to (own i) shared (integrate k es).
Proof. intros Hi H. apply integrate_local. intros e He. eapply (sep_nodes _ _ _ _ Sep); eauto. Qed.

Lemma iter_local i (f : mem → mem) x : local_to (own i) shared f → i ∈ isles → local_to (own i) shared (Nat.iter x f).
Proof.
  intros L Hi. induction x as [|x IH]; cbn.
  - split; [done|]. intros m m' A e He. apply A. set_solver.
  - split.
    + intros m e He. change (f (Nat.iter x f m) !! e = m !! e). rewrite (proj1 L) by done. by apply IH.
    + intros m m' A. change (agree (own i) (f (Nat.iter x f m)) (f (Nat.iter x f m'))).
      apply L. by apply (local_see i).
Qed.
Lemma pos_local i x : i ∈ isles → local_to (own i) shared (pos_loop k x i).
Proof.
  intros Hi. destruct (sep_pos _ _ _ _ Sep i Hi) as [L B]. induction x as [|x IH]; cbn.
  - split; [done|]. intros m m' A e He. apply A. set_solver.
  - split.
    + intros m e He. pose proof (proj1 L m e He) as E. cbn in E. destruct (k_pos k i m) as [m1 []]; cbn in E; [done|].
      rewrite (proj1 IH) by done. done.
    + intros m m' A. pose proof (local_see i _ m m' Hi L A) as A1. pose proof (B m m' A) as E. cbn in A1.
      destruct (k_pos k i m) as [m1 b], (k_pos k i m') as [m1' b']. cbn in *. subst b'.
      destruct b; [|by apply IH]. intros e He. apply A1. set_solver.
Qed.
Lemma seq_local x y i : i ∈ isles → local_to (own i) shared (run_seq k x y i).
Proof.
  intros Hi. unfold run_seq. 
  pose proof (sep_pack _ _ _ _ Sep i Hi) as L1.
  pose proof (iter_local i _ x (sep_solve _ _ _ _ Sep i Hi) Hi) as L2.
  pose proof (nodes_local i (k_nodes k i) Hi ltac:(done)) as L3.
  pose proof (sep_assign _ _ _ _ Sep i Hi) as L4. pose proof (pos_local i y Hi) as L5.
  split.
  - intros m e He. rewrite (proj1 L5), (proj1 L4), (proj1 L3), (proj1 L2), (proj1 L1) by done. done.
  - intros m m' A. apply L5. apply (local_see i _ _ _ Hi L4). apply (local_see i _ _ _ Hi L3).
    apply (local_see i _ _ _ Hi L2). by apply (local_see i _ _ _ Hi L1).
Qed.

(** ** The sequential run *)
Lemma seq_all_other x y is m e : (∀ i, i ∈ is → i ∈ isles) → (∀ i, i ∈ is → e ∉ own i) → run_all_seq k x y is m !! e = m !! e.
Proof.
  revert m. induction is as [|i is IH]; intros m Hi He; [done|]. cbn.
  change (foldl _ ?a is) with (run_all_seq k x y is a). rewrite IH by set_solver.
  apply (proj1 (seq_local x y i ltac:(apply Hi; set_solver))). apply He. set_solver.
Qed.
Lemma seq_all_own x y is m0 m i : NoDup is → (∀ i, i ∈ is → i ∈ isles) → i ∈ is → agree (see i) m m0 →
  agree (own i) (run_all_seq k x y is m) (run_seq k x y i m0).
Proof.
  revert m. induction is as [|j is IH]; intros m Hn Hs Hi A; [by apply elem_of_nil in Hi|].
  apply NoDup_cons in Hn as [Hn Hn']. cbn. change (foldl _ ?a is) with (run_all_seq k x y is a).
  destruct (decide (i = j)) as [->|Hij].
  - intros e He. rewrite seq_all_other.
    + by apply (seq_local x y j ltac:(apply Hs; set_solver)).
    + set_solver.
    + intros i' Hi' He'. assert (j ≠ i') by (intros ->; done).
      pose proof (sep_own _ _ _ _ Sep j i' ltac:(apply Hs; set_solver) ltac:(apply Hs; set_solver) ltac:(done)).
      set_solver.
  - apply IH; [done|set_solver|set_solver|]. eapply agree_trans; [|done].
    apply (local_other i j); [apply Hs; set_solver|apply Hs; set_solver|done|].
    apply seq_local. apply Hs. set_solver.
Qed.

(** ** Invariant of the parallel run *)
Variable chunks : nat → list (list nat).
Hypothesis Spl : splits k chunks.
Variable m0 : mem.
Notation FIN i := (run_seq k N P i m0).

(** What is left of island [i] with context [c] in memory [E]. *)
Definition rest (i : nat) (c : ctx) (E : mem) : mem :=
  match c_state c with
  | SPack => run_seq k N P i E
  | SSolve => pos_loop k P i (k_assign k i (integrate k (k_nodes k i) (Nat.iter (N - c_iter c) (k_solve k i) E)))
  | SApply => pos_loop k P i (k_assign k i (integrate k (k_nodes k i) E))
  | SAssign => pos_loop k P i (k_assign k i E)
  | SPos => pos_loop k (P - c_iter c) i E
  end.
Definition iter_ok (c : ctx) : Prop :=
  match c_state c with SSolve => c_iter c < N | SPos => c_iter c < P | _ => True end.

Inductive phase :=
| PhTodo
| PhStep (c : ctx)
| PhChunk (left : list (list nat)) (done : list nat) (it : nat)
| PhDone.
Definition jobs_of (i : nat) (js : list job) : list job := filter (λ j, job_isle j = i) js.
Definition phase_ok (s : pst V) (i : nat) (ph : phase) : Prop :=
  match ph with
  | PhTodo => i ∈ p_todo s ∧ jobs_of i (p_jobs s) = [] ∧ agree (see i) (p_mem s) m0
  | PhStep c => i ∉ p_todo s ∧ p_ctx s !! i = Some c ∧ jobs_of i (p_jobs s) = [JStep i] ∧ iter_ok c
      ∧ ∃ E, agree (see i) (p_mem s) E ∧ rest i c E = FIN i
  | PhChunk l d it => i ∉ p_todo s ∧ p_ctx s !! i = Some (Ctx SAssign it)
      ∧ p_left s !! i = Some (length l) ∧ l ≠ [] ∧ jobs_of i (p_jobs s) ≡ₚ JChunk i <$> l
      ∧ d ++ concat l ≡ₚ k_nodes k i
      ∧ ∃ E, agree (see i) (p_mem s) (integrate k d E) ∧ rest i (Ctx SApply it) E = FIN i
  | PhDone => i ∉ p_todo s ∧ jobs_of i (p_jobs s) = [] ∧ p_ctx s !! i = None ∧ agree (own i) (p_mem s) (FIN i)
  end.
Definition not_done (ph : phase) : Prop := match ph with PhDone => False | _ => True end.
Global Instance not_done_dec ph : Decision (not_done ph).
Proof. destruct ph; apply _. Defined.
Definition active (ph : nat → phase) : list nat := filter (λ i, not_done (ph i)) isles.
Definition upd (ph : nat → phase) (i : nat) (x : phase) : nat → phase := λ j, if decide (j = i) then x else ph j.

(** Steps left of an island. *)
Definition rank (i : nat) (x : phase) : nat :=
  let C := length (chunks i) in
  match x with
  | PhTodo => 5 + N + C + P
  | PhStep c =>
      match c_state c with
      | SPack => 4 + N + C + P
      | SSolve => 3 + (N - c_iter c) + C + P
      | SApply => 3 + C + P
      | SAssign => 1 + P
      | SPos => P - c_iter c
      end
  | PhChunk l _ _ => 1 + length l + P
  | PhDone => 0
  end.
Definition total (ph : nat → phase) : nat := sum_list_with (λ i, rank i (ph i)) isles.

Record inv (s : pst V) (ph : nat → phase) : Prop := {
  v_phase : ∀ i, i ∈ isles → phase_ok s i (ph i);
  v_count : p_count s = length (active ph);
  v_jobs : ∀ j, j ∈ p_jobs s → job_isle j ∈ isles;
  v_todo : NoDup (p_todo s) ∧ ∀ i, i ∈ p_todo s → i ∈ isles;
  v_rest : ∀ e, (∀ i, i ∈ isles → e ∉ own i) → p_mem s !! e = m0 !! e
}.

Lemma phase_frame s s' j x :
  (j ∈ p_todo s ↔ j ∈ p_todo s') → jobs_of j (p_jobs s) = jobs_of j (p_jobs s') →
  p_ctx s !! j = p_ctx s' !! j → p_left s !! j = p_left s' !! j → agree (see j) (p_mem s') (p_mem s) →
  phase_ok s j x → phase_ok s' j x.
Proof.
  intros Ht Hj Hc Hl A. destruct x as [|c|l d it|]; cbn; rewrite <- ?Ht, <- ?Hj, <- ?Hc, <- ?Hl.
  - intros (? & ? & ?). split; [done|]. split; [done|]. by eapply agree_trans.
  - intros (? & ? & ? & ? & E & ? & ?). do 4 (split; [done|]). exists E. split; [by eapply agree_trans|done].
  - intros (? & ? & ? & ? & ? & ? & E & ? & ?). do 6 (split; [done|]). exists E. split; [by eapply agree_trans|done].
  - intros (? & ? & ? & B). do 3 (split; [done|]). intros e He. rewrite A by set_solver. by apply B.
Qed.

Lemma upd_same ph i x : upd ph i x i = x. Proof. unfold upd. by rewrite decide_True. Qed.
Lemma upd_other ph i x j : j ≠ i → upd ph i x j = ph j. Proof. intros. unfold upd. by rewrite decide_False. Qed.

Lemma filter_ext_in' {A} (f g : A → Prop) `{∀ x, Decision (f x), ∀ x, Decision (g x)} (l : list A) :
  (∀ x, x ∈ l → f x ↔ g x) → filter f l = filter g l.
Proof.
  induction l as [|a l IH]; intros Hx; [done|]. rewrite !filter_cons.
  rewrite IH by set_solver. specialize (Hx a ltac:(set_solver)).
  destruct (decide (f a)), (decide (g a)); naive_solver.
Qed.

Lemma active_upd ph i x : i ∈ isles → not_done (ph i) →
  length (active (upd ph i x)) + (if decide (not_done x) then 0 else 1) = length (active ph).
Proof.
  intros Hi Hd. pose proof (sep_isles _ _ _ _ Sep) as Hn. unfold active.
  revert Hi Hn. generalize isles. intros l0. induction l0 as [|j l IH]; intros Hi Hn; [by apply elem_of_nil in Hi|].
  apply NoDup_cons in Hn as [Hn Hn']. rewrite !filter_cons.
  destruct (decide (i = j)) as [->|Hij].
  - rewrite upd_same. rewrite (decide_True (P:=not_done (ph j))) by done.
    rewrite (filter_ext_in' (λ i, not_done (upd ph j x i)) (λ i, not_done (ph i)) l).
    + destruct (decide (not_done x)); cbn; lia.
    + intros y Hy. rewrite upd_other; [done|]. by intros ->.
  - rewrite upd_other by done. apply elem_of_cons in Hi as [?|Hi]; [done|].
    specialize (IH Hi Hn'). destruct (decide (not_done (ph j))); cbn; lia.
Qed.

Lemma total_upd ph i x : i ∈ isles → rank i x < rank i (ph i) → total (upd ph i x) < total ph.
Proof.
  intros Hi Hr. pose proof (sep_isles _ _ _ _ Sep) as Hn. unfold total.
  revert Hi Hn. generalize isles. intros l0. induction l0 as [|j l IH]; intros Hi Hn; [by apply elem_of_nil in Hi|].
  apply NoDup_cons in Hn as [Hn Hn']. cbn.
  destruct (decide (i = j)) as [->|Hij].
  - rewrite upd_same. assert (sum_list_with (λ i, rank i (upd ph j x i)) l = sum_list_with (λ i, rank i (ph i)) l) as ->; [|lia].
    clear IH Hi Hn'. induction l as [|y l IH]; [done|]. cbn. rewrite upd_other by set_solver.
    rewrite IH by set_solver. done.
  - rewrite upd_other by done. apply elem_of_cons in Hi as [?|Hi]; [done|]. specialize (IH Hi Hn'). lia.
Qed.

(** One island moves on. *)
Lemma inv_move s ph s' i x :
  inv s ph → i ∈ isles → not_done (ph i) → phase_ok s' i x →
  (∀ j, j ≠ i → j ∈ p_todo s ↔ j ∈ p_todo s') → (∀ j, j ≠ i → jobs_of j (p_jobs s) = jobs_of j (p_jobs s')) →
  (∀ j, j ≠ i → p_ctx s !! j = p_ctx s' !! j) → (∀ j, j ≠ i → p_left s !! j = p_left s' !! j) →
  (∀ e, e ∉ own i → p_mem s' !! e = p_mem s !! e) →
  (∀ j, j ∈ p_jobs s' → job_isle j ∈ isles) → NoDup (p_todo s') → (∀ j, j ∈ p_todo s' → j ∈ isles) →
  p_count s' + (if decide (not_done x) then 0 else 1) = p_count s →
  inv s' (upd ph i x).
Proof.
  intros I Hi Hd Hx Ht Hj Hc Hl Hm Hjobs Ht1 Ht2 Hcount. split.
  - intros j Hj'. destruct (decide (j = i)) as [->|Hne]; [by rewrite upd_same|].
    rewrite upd_other by done. apply (phase_frame s); [by apply Ht|by apply Hj|by apply Hc|by apply Hl| |by apply I].
    intros e He. apply Hm. pose proof (sep_own _ _ _ _ Sep j i Hj' Hi Hne).
    pose proof (sep_shared _ _ _ _ Sep i Hi). set_solver.
  - pose proof (active_upd ph i x Hi Hd). rewrite <- (v_count _ _ I) in H. lia.
  - done.
  - done.
  - intros e He. rewrite Hm by (by apply He). by apply I.
Qed.

Lemma jobs_of_app j l l' : jobs_of j (l ++ l') = jobs_of j l ++ jobs_of j l'.
Proof. apply filter_app. Qed.
Lemma jobs_of_other i j b : job_isle b = i → j ≠ i → jobs_of j [b] = [].
Proof. intros <- Hne. unfold jobs_of. rewrite filter_cons, decide_False; [done|]. congruence. Qed.
Lemma jobs_of_self i b : job_isle b = i → jobs_of i [b] = [b].
Proof. intros <-. unfold jobs_of. by rewrite filter_cons, decide_True. Qed.
Lemma jobs_delete_other i js x b : js !! x = Some b → job_isle b ≠ i → jobs_of i (delete x js) = jobs_of i js.
Proof.
  intros H Hne. rewrite <- (take_drop_middle js x b H) at 2.
  rewrite delete_take_drop, !jobs_of_app. f_equal. unfold jobs_of. by rewrite filter_cons, decide_False.
Qed.
Lemma jobs_delete_self js x b : js !! x = Some b → jobs_of (job_isle b) js ≡ₚ b :: jobs_of (job_isle b) (delete x js).
Proof.
  intros H. rewrite <- (take_drop_middle js x b H) at 1.
  rewrite delete_take_drop, !jobs_of_app. unfold jobs_of at 2. rewrite filter_cons, decide_True by done.
  by rewrite Permutation_middle.
Qed.
Lemma jobs_none i js : jobs_of i js = [] → ∀ b, b ∈ js → job_isle b ≠ i.
Proof.
  intros H b Hb E. assert (Hf : b ∈ jobs_of i js) by (by apply elem_of_list_filter). rewrite H in Hf.
  by apply elem_of_nil in Hf.
Qed.

Lemma elem_delete {A} (b : A) (x : nat) (l : list A) : b ∈ delete x l → b ∈ l.
Proof. intros H. eapply elem_of_submseteq; [done|]. apply sublist_submseteq, sublist_delete. Qed.

Lemma inv_start s ph : inv s ph → p_todo s ≠ [] → ∃ ph', inv (p_start s) ph' ∧ total ph' < total ph.
Proof.
  intros I. unfold p_start. destruct (p_todo s) as [|i todo] eqn:Et; [done|]. intros _.
  destruct (v_todo _ _ I) as [Hn Hs]. rewrite Et in Hn, Hs. apply NoDup_cons in Hn as [Hn Hn'].
  assert (Hi : i ∈ isles) by (apply Hs; set_solver).
  pose proof (v_phase _ _ I i Hi) as Hp.
  assert (Hph : ph i = PhTodo).
  { destruct (ph i); cbn in Hp; rewrite Et in Hp; set_solver. }
  rewrite Hph in Hp. destruct Hp as (_ & Hj & A).
  exists (upd ph i (PhStep (Ctx SPack 0))).
  split; [|apply total_upd; [done|rewrite Hph; unfold rank; cbn [c_state]; lia]].
  apply (inv_move s ph); [done|done|by rewrite Hph|..]; cbn [p_todo p_jobs p_ctx p_left p_mem p_count].
  - cbn [phase_ok p_todo p_jobs p_ctx p_left p_mem]. split; [done|]. split; [by rewrite lookup_insert|].
    split; [by rewrite jobs_of_app, Hj, jobs_of_self|]. split; [done|]. by exists m0.
  - intros j Hne. rewrite Et. set_solver.
  - intros j Hne. by rewrite jobs_of_app, (jobs_of_other i), app_nil_r.
  - intros j Hne. by rewrite lookup_insert_ne.
  - done.
  - done.
  - intros j [H|H%elem_of_list_singleton]%elem_of_app; [by apply I|by subst].
  - done.
  - set_solver.
  - rewrite decide_True by done. lia.
Qed.

(** The island of a queued step is at that step. *)
Lemma step_phase s ph i x :
  inv s ph → p_jobs s !! x = Some (JStep i) →
  i ∈ isles ∧ ∃ c, ph i = PhStep c ∧ jobs_of i (delete x (p_jobs s)) = [].
Proof.
  intros I Hx. assert (Hi : i ∈ isles) by (apply (v_jobs _ _ I (JStep i)), elem_of_list_lookup; eauto).
  split; [done|]. pose proof (v_phase _ _ I i Hi) as Hp.
  pose proof (jobs_delete_self _ _ _ Hx) as Hd. cbn in Hd.
  destruct (ph i) as [|c|l d it|]; cbn in Hp.
  - destruct Hp as (_ & Hj & _). rewrite Hj in Hd. by apply Permutation_nil_cons in Hd.
  - exists c. split; [done|]. destruct Hp as (_ & _ & Hj & _). rewrite Hj in Hd.
    apply Permutation_length in Hd. cbn in Hd. apply nil_length_inv. lia.
  - destruct Hp as (_ & _ & _ & _ & Hj & _). rewrite Hj in Hd.
    assert (H : JStep i ∈ JChunk i <$> l) by (rewrite Hd; set_solver).
    by apply elem_of_list_fmap in H as (? & ? & _).
  - destruct Hp as (_ & Hj & _). rewrite Hj in Hd. by apply Permutation_nil_cons in Hd.
Qed.

(** Taking the next step of island [i] to a step in state [c']. *)
Lemma inv_again s ph i x c' m' :
  inv s ph → p_jobs s !! x = Some (JStep i) →
  (∀ e, e ∉ own i → m' !! e = p_mem s !! e) → iter_ok c' → (∃ E, agree (see i) m' E ∧ rest i c' E = FIN i) →
  (∀ c, p_ctx s !! i = Some c → rank i (PhStep c') < rank i (PhStep c)) →
  ∃ ph', inv (p_again i c' m' (PSt (p_mem s) (p_ctx s) (p_left s) (delete x (p_jobs s)) (p_todo s) (p_count s))) ph'
    ∧ total ph' < total ph.
Proof.
  intros I Hx Hm Hok HE Hr. destruct (step_phase _ _ _ _ I Hx) as (Hi & c & Hph & Hj).
  pose proof (v_phase _ _ I i Hi) as Hp. rewrite Hph in Hp. destruct Hp as (Ht & Hc & _).
  exists (upd ph i (PhStep c')). unfold p_again.
  split; [|apply total_upd; [done|rewrite Hph; by apply Hr]].
  apply (inv_move s ph); [done|done|by rewrite Hph|..]; cbn [p_todo p_jobs p_ctx p_left p_mem p_count].
  - cbn [phase_ok p_todo p_jobs p_ctx p_left p_mem]. split; [done|]. split; [by rewrite lookup_insert|].
    split; [by rewrite jobs_of_app, Hj, jobs_of_self|]. done.
  - done.
  - intros j Hne. rewrite jobs_of_app, (jobs_of_other i), app_nil_r by done.
    symmetry. apply (jobs_delete_other _ _ _ (JStep i)); [done|]. cbn. congruence.
  - intros j Hne. by rewrite lookup_insert_ne.
  - done.
  - done.
  - intros j [H|H%elem_of_list_singleton]%elem_of_app; [|by subst].
    apply I. by eapply elem_delete.
  - apply I.
  - apply I.
  - rewrite decide_True by done. lia.
Qed.

Lemma inv_finish s ph i x m' :
  inv s ph → p_jobs s !! x = Some (JStep i) →
  (∀ e, e ∉ own i → m' !! e = p_mem s !! e) → agree (own i) m' (FIN i) →
  ∃ s' ph', p_finish i (PSt m' (p_ctx s) (p_left s) (delete x (p_jobs s)) (p_todo s) (p_count s)) = Ok s' ∧ inv s' ph'
    ∧ total ph' < total ph.
Proof.
  intros I Hx Hm HE. destruct (step_phase _ _ _ _ I Hx) as (Hi & c & Hph & Hj).
  pose proof (v_phase _ _ I i Hi) as Hp. rewrite Hph in Hp. destruct Hp as (Ht & Hc & _ & Hok & _).
  assert (Hrank : 0 < rank i (PhStep c)).
  { unfold rank. unfold iter_ok in Hok. destruct c as [[] it]; cbn [c_state c_iter] in *; lia. }
  assert (Hpos : 0 < p_count s).
  { rewrite (v_count _ _ I). assert (Ha : i ∈ active ph) by (apply elem_of_list_filter; by rewrite Hph).
    destruct (active ph); [by apply elem_of_nil in Ha|cbn; lia]. }
  unfold p_finish. cbn [p_count]. rewrite bool_decide_eq_true_2 by done. cbn [assert_ mbind res_bind].
  eexists _, (upd ph i PhDone). split; [done|].
  split; [|apply total_upd; [done|rewrite Hph; exact Hrank]].
  apply (inv_move s ph); [done|done|by rewrite Hph|..]; cbn [p_todo p_jobs p_ctx p_left p_mem p_count].
  - cbn [phase_ok p_todo p_jobs p_ctx p_left p_mem]. split; [done|]. split; [done|]. split; [by rewrite lookup_delete|done].
  - done.
  - intros j Hne. symmetry. apply (jobs_delete_other _ _ _ (JStep i)); [done|]. cbn. congruence.
  - intros j Hne. by rewrite lookup_delete_ne.
  - done.
  - done.
  - intros j H. apply I. by eapply elem_delete.
  - apply I.
  - apply I.
  - rewrite decide_False by (by intros []). lia.
Qed.

Lemma u8_small x : x < 256 → u8 x = x. Proof. intros. by apply Nat.mod_small. Qed.
Lemma u8_lt x : u8 x < 256. Proof. apply Nat.mod_upper_bound. lia. Qed.

Lemma inv_chunks s ph i x it :
  inv s ph → p_jobs s !! x = Some (JStep i) → p_ctx s !! i = Some (Ctx SApply it) →
  64 < length (k_nodes k i) →
  ∃ ph', inv (PSt (p_mem s) (<[i := Ctx SAssign it]> (p_ctx s)) (<[i := length (chunks i)]> (p_left s))
                  (delete x (p_jobs s) ++ (JChunk i <$> chunks i)) (p_todo s) (p_count s)) ph'
    ∧ total ph' < total ph.
Proof.
  intros I Hx Hc Hlen. destruct (step_phase _ _ _ _ I Hx) as (Hi & c & Hph & Hj).
  pose proof (v_phase _ _ I i Hi) as Hp. rewrite Hph in Hp. destruct Hp as (Ht & Hc' & _ & _ & E & A & HE).
  rewrite Hc in Hc'. injection Hc' as <-. destruct (Spl i Hlen) as [Hne Hcc].
  assert (Hf : ∀ l, jobs_of i (JChunk i <$> l) = JChunk i <$> l).
  { intros l. induction l as [|a l IH]; [done|]. cbn [fmap list_fmap]. unfold jobs_of in *.
    rewrite filter_cons, decide_True by done. by rewrite IH. }
  assert (Hf' : ∀ j l, j ≠ i → jobs_of j (JChunk i <$> l) = []).
  { intros j l Hji. induction l as [|a l IH]; [done|]. cbn [fmap list_fmap]. unfold jobs_of in *.
    rewrite filter_cons, decide_False by (cbn; congruence). by rewrite IH. }
  exists (upd ph i (PhChunk (chunks i) [] it)).
  split; [|apply total_upd; [done|rewrite Hph; unfold rank; cbn [c_state]; lia]].
  apply (inv_move s ph); [done|done|by rewrite Hph|..]; cbn [p_todo p_jobs p_ctx p_left p_mem p_count].
  - cbn [phase_ok p_todo p_jobs p_ctx p_left p_mem]. split; [done|]. split; [by rewrite lookup_insert|].
    split; [by rewrite lookup_insert|]. split; [done|]. split; [by rewrite jobs_of_app, Hj, Hf|].
    split; [done|]. by exists E.
  - done.
  - intros j Hji. rewrite jobs_of_app, Hf', app_nil_r by done.
    symmetry. apply (jobs_delete_other _ _ _ (JStep i)); [done|]. cbn. congruence.
  - intros j Hji. by rewrite lookup_insert_ne.
  - intros j Hji. by rewrite lookup_insert_ne.
  - done.
  - intros j [H|H]%elem_of_app; [apply I; by eapply elem_delete|].
    by apply elem_of_list_fmap in H as (? & -> & _).
  - apply I.
  - apply I.
  - rewrite decide_True by done. lia.
Qed.

Lemma inv_update s ph i x :
  inv s ph → p_jobs s !! x = Some (JStep i) →
  ∃ s' ph', p_update k n p chunks i (PSt (p_mem s) (p_ctx s) (p_left s) (delete x (p_jobs s)) (p_todo s) (p_count s)) = Ok s'
    ∧ inv s' ph' ∧ total ph' < total ph.
Proof.
  intros I Hx. destruct (step_phase _ _ _ _ I Hx) as (Hi & c & Hph & Hj).
  pose proof (v_phase _ _ I i Hi) as Hp. rewrite Hph in Hp. destruct Hp as (Ht & Hc & _ & Hok & E & A & HE).
  unfold p_update. cbn [p_ctx]. rewrite Hc. cbn [opt_res mbind res_bind].
  assert (Hagain : ∀ c' m', (∀ e, e ∉ own i → m' !! e = p_mem s !! e) → iter_ok c' →
     (∃ E, agree (see i) m' E ∧ rest i c' E = FIN i) → rank i (PhStep c') < rank i (PhStep c) →
     ∃ s' ph', Ok (p_again i c' m' (PSt (p_mem s) (p_ctx s) (p_left s) (delete x (p_jobs s)) (p_todo s) (p_count s))) = Ok s'
       ∧ inv s' ph' ∧ total ph' < total ph).
  { intros c' m' H1 H2 H3 H4. destruct (inv_again s ph i x c' m' I Hx H1 H2 H3) as [ph' ?]; [|eauto].
    intros c0. rewrite Hc. by intros [= <-]. }
  assert (Hown : ∀ m' E', agree (see i) m' E' → E' = FIN i → agree (own i) m' (FIN i)).
  { intros m' E' A' <- e He. apply A'. set_solver. }
  destruct c as [st it]. cbn [c_state c_iter] in *. destruct st; cbn [iter_ok rest c_state c_iter] in Hok, HE.
  - pose proof (sep_pack _ _ _ _ Sep i Hi) as L. apply Hagain.
    + apply L.
    + cbn. unfold N. lia.
    + exists (k_pack k i E). split; [by apply local_see|]. cbn [rest c_state c_iter]. by rewrite Nat.sub_0_r.
    + unfold rank. cbn [c_state c_iter]. lia.
  - pose proof (sep_solve _ _ _ _ Sep i Hi) as L. cbn in Hok.
    assert (HN : N < 256) by (unfold N; pose proof (u8_lt n); lia).
    rewrite (u8_small (it + 1)) by lia. apply Hagain.
    + apply L.
    + case_bool_decide; cbn; [done|]. unfold N. lia.
    + exists (k_solve k i E). split; [by apply local_see|]. rewrite <- HE.
      case_bool_decide as Hle; cbn [rest c_state c_iter].
      * replace (N - it) with 1; [done|]. unfold N in *. lia.
      * replace (N - it) with (S (N - (it + 1))) by lia. by rewrite Nat.iter_succ_r.
    + unfold rank. case_bool_decide; cbn [c_state c_iter]; lia.
  - pose proof (sep_assign _ _ _ _ Sep i Hi) as L. fold P. case_bool_decide as HP.
    + apply Hagain.
      * apply L.
      * done.
      * exists (k_assign k i E). split; [by apply local_see|]. cbn [rest c_state c_iter]. by rewrite Nat.sub_0_r.
      * unfold rank. cbn [c_state c_iter]. lia.
    + apply (inv_finish s ph i x); [done|done|apply L|]. apply (Hown _ (k_assign k i E)); [by apply local_see|].
      rewrite <- HE. by replace P with 0 by lia.
  - case_bool_decide as Hlen.
    + pose proof (nodes_local i (k_nodes k i) Hi ltac:(done)) as L. apply Hagain.
      * apply L.
      * done.
      * exists (integrate k (k_nodes k i) E). split; [by apply local_see|]. done.
      * unfold rank. cbn [c_state c_iter]. lia.
    + unfold max_sequential_size in Hlen.
      destruct (inv_chunks s ph i x it I Hx Hc ltac:(lia)) as [ph' ?]. eauto.
  - change (it < P) in Hok. assert (HP : P < 256) by apply u8_lt.
    destruct (sep_pos _ _ _ _ Sep i Hi) as [L B].
    pose proof (local_see i _ _ _ Hi L A) as A1. pose proof (B _ _ A) as EB. pose proof (proj1 L (p_mem s)) as Hm.
    cbn [p_mem]. replace (P - it) with (S (P - (it + 1))) in HE by lia. cbn [pos_loop] in HE.
    cbn in A1, EB, Hm.
    destruct (k_pos k i (p_mem s)) as [m1 stop], (k_pos k i E) as [E1 stop']. cbn in A1, EB, Hm. subst stop'.
    cbn [p_ctx p_left p_jobs p_todo p_count].
    destruct stop; [by apply (inv_finish s ph i x); [| | |apply (Hown _ E1)]|].
    rewrite (u8_small (it + 1)) by lia. fold P. case_bool_decide as Hle.
    + apply (inv_finish s ph i x); [done|done|done|]. apply (Hown _ E1); [done|].
      rewrite <- HE. by replace (P - (it + 1)) with 0 by lia.
    + unfold p_again. cbn [p_ctx p_left p_jobs p_todo p_count]. apply Hagain.
      * done.
      * change (it + 1 < P). lia.
      * exists E1. done.
      * unfold rank. cbn [c_state c_iter]. lia.
Qed.

Lemma inv_chunk s ph i es x :
  inv s ph → p_jobs s !! x = Some (JChunk i es) →
  ∃ s' ph', p_chunk k i es (PSt (p_mem s) (p_ctx s) (p_left s) (delete x (p_jobs s)) (p_todo s) (p_count s)) = Ok s'
    ∧ inv s' ph' ∧ total ph' < total ph.
Proof.
  intros I Hx. assert (Hi : i ∈ isles) by (apply (v_jobs _ _ I (JChunk i es)), elem_of_list_lookup; eauto).
  pose proof (v_phase _ _ I i Hi) as Hp.
  pose proof (jobs_delete_self _ _ _ Hx) as Hd. cbn in Hd.
  destruct (ph i) as [|c|l d it|] eqn:Hph; cbn [phase_ok] in Hp.
  { destruct Hp as (_ & Hj & _). rewrite Hj in Hd. by apply Permutation_nil_cons in Hd. }
  { destruct Hp as (_ & _ & Hj & _). rewrite Hj in Hd.
    assert (H : JChunk i es ∈ [JStep i]) by (rewrite Hd; set_solver). by apply elem_of_list_singleton in H. }
  2: { destruct Hp as (_ & Hj & _). rewrite Hj in Hd. by apply Permutation_nil_cons in Hd. }
  destruct Hp as (Ht & Hc & Hl & Hne & Hj & Hcc & E & A & HE).
  assert (∃ l', l ≡ₚ es :: l' ∧ jobs_of i (delete x (p_jobs s)) ≡ₚ JChunk i <$> l') as (l' & El & Ej).
  { rewrite Hj in Hd. assert (H : JChunk i es ∈ JChunk i <$> l) by (rewrite Hd; set_solver).
    apply elem_of_list_fmap in H as (es' & [= <-] & H). apply elem_of_Permutation in H as [l' El].
    exists l'. split; [done|]. rewrite El in Hd. cbn in Hd. symmetry. by apply Permutation_cons_inv in Hd. }
  assert (Hlen : length l = S (length l')) by (by rewrite El).
  assert (Hcc' : (d ++ es) ++ concat l' ≡ₚ k_nodes k i).
  { rewrite <- Hcc. rewrite <- app_assoc. f_equiv. symmetry.
    assert (∀ a b : list (list nat), a ≡ₚ b → concat a ≡ₚ concat b) as Hconcat.
    { intros a b Hab. by induction Hab; cbn; [done|f_equiv|rewrite !app_assoc; f_equiv; apply Permutation_app_comm|etrans]. }
    rewrite (Hconcat _ _ El). done. }
  pose proof (nodes_local i es Hi) as L. assert (Hes : ∀ e, e ∈ es → e ∈ k_nodes k i).
  { intros e He. rewrite <- Hcc'. set_solver. }
  specialize (L Hes).
  assert (A' : agree (see i) (integrate k es (p_mem s)) (integrate k (d ++ es) E)).
  { rewrite integrate_app. by apply local_see. }
  unfold p_chunk. cbn [p_left]. rewrite Hl. cbn [opt_res mbind res_bind].
  rewrite (bool_decide_eq_true_2 (0 < length l)) by lia. cbn [require_ mbind res_bind p_mem p_ctx p_left p_jobs p_todo p_count].
  assert (Hother : ∀ j, j ≠ i → jobs_of j (p_jobs s) = jobs_of j (delete x (p_jobs s))).
  { intros j Hji. symmetry. apply (jobs_delete_other _ _ _ (JChunk i es)); [done|]. cbn. congruence. }
  case_bool_decide as H1.
  - assert (l' = []) as -> by (apply nil_length_inv; lia). cbn in Hcc'. rewrite app_nil_r in Hcc'.
    eexists _, (upd ph i (PhStep (Ctx SAssign it))). split; [done|].
    split; [|apply total_upd; [done|rewrite Hph; unfold rank; cbn [c_state]; lia]].
    apply (inv_move s ph); [done|done|by rewrite Hph|..]; cbn [p_todo p_jobs p_ctx p_left p_mem p_count].
    + cbn [phase_ok p_todo p_jobs p_ctx p_left p_mem]. split; [done|]. split; [done|].
      split; [|split; [done|]].
      * cbn in Ej. symmetry in Ej. apply Permutation_nil in Ej. by rewrite jobs_of_app, Ej, jobs_of_self.
      * exists (integrate k (d ++ es) E). split; [done|]. rewrite (integrate_perm _ _ _ Hcc'). done.
    + done.
    + intros j Hji. rewrite jobs_of_app, (jobs_of_other i), app_nil_r by done. by apply Hother.
    + done.
    + intros j Hji. by rewrite lookup_insert_ne.
    + apply L.
    + intros j [H|H%elem_of_list_singleton]%elem_of_app; [apply I; by eapply elem_delete|by subst].
    + apply I.
    + apply I.
    + rewrite decide_True by done. lia.
  - eexists _, (upd ph i (PhChunk l' (d ++ es) it)). split; [done|].
    split; [|apply total_upd; [done|rewrite Hph; unfold rank; cbn [c_state]; lia]].
    apply (inv_move s ph); [done|done|by rewrite Hph|..]; cbn [p_todo p_jobs p_ctx p_left p_mem p_count].
    + cbn [phase_ok p_todo p_jobs p_ctx p_left p_mem]. split; [done|]. split; [done|].
      split; [rewrite lookup_insert; f_equal; lia|].
      split; [intros ->; cbn in Hlen; lia|]. split; [done|]. split; [done|]. by exists E.
    + done.
    + done.
    + done.
    + intros j Hji. by rewrite lookup_insert_ne.
    + apply L.
    + intros j H. apply I. by eapply elem_delete.
    + apply I.
    + apply I.
    + rewrite decide_True by done. lia.
Qed.

Lemma inv_step s ph o : inv s ph →
  ∃ s' ph', p_step k n p chunks s o = Ok s' ∧ inv s' ph' ∧ total ph' ≤ total ph
    ∧ (enabled s o = true → total ph' < total ph).
Proof.
  intros I. destruct o as [|j]; cbn [p_step enabled].
  - destruct (decide (p_todo s = [])) as [Et|Et].
    + exists s, ph. unfold p_start. rewrite Et. split; [done|]. split; [done|]. split; [lia|].
      by rewrite bool_decide_eq_false_2 by naive_solver.
    + destruct (inv_start s ph I Et) as (ph1 & ? & ?). exists (p_start s), ph1.
      split; [done|]. split; [done|]. lia.
  - destruct (p_jobs s !! j) as [[i|i es]|] eqn:Ej.
    + destruct (inv_update s ph i j I Ej) as (s' & ph' & ? & ? & ?). exists s', ph'.
      split; [done|]. split; [done|]. lia.
    + destruct (inv_chunk s ph i es j I Ej) as (s' & ph' & ? & ? & ?). exists s', ph'.
      split; [done|]. split; [done|]. lia.
    + exists s, ph. split; [done|]. split; [done|]. split; [lia|].
      apply lookup_ge_None in Ej. by rewrite bool_decide_eq_false_2 by lia.
Qed.

Lemma inv_run s ph os : inv s ph →
  ∃ s' ph', p_run k n p chunks s os = Ok s' ∧ inv s' ph' ∧ work k n p chunks s os + total ph' ≤ total ph.
Proof.
  revert s ph. induction os as [|o os IH]; intros s ph I; cbn [p_run work].
  { exists s, ph. split; [done|]. split; [done|]. lia. }
  destruct (inv_step s ph o I) as (s1 & ph1 & E & I1 & H1 & H2).
  rewrite E. cbn [mbind res_bind]. destruct (IH s1 ph1 I1) as (s' & ph' & E' & I' & H').
  exists s', ph'. split; [done|]. split; [done|]. destruct (enabled s o); [specialize (H2 eq_refl)|]; lia.
Qed.

Lemma inv_init : inv (p_init isles m0) (λ _, PhTodo).
Proof.
  split; cbn.
  - intros i Hi. done.
  - unfold active. f_equal. symmetry. generalize isles. intros l. induction l as [|j l IH]; [done|].
    rewrite filter_cons, decide_True by done. by rewrite IH.
  - intros j H. by apply elem_of_nil in H.
  - split; [apply Sep|done].
  - done.
Qed.

Lemma done_all s ph : inv s ph → p_count s = 0 →
  p_jobs s = [] ∧ p_todo s = [] ∧ (∀ i, i ∈ isles → p_ctx s !! i = None) ∧ p_mem s = run_all_seq k N P isles m0.
Proof.
  intros I Hz. rewrite (v_count _ _ I) in Hz. apply nil_length_inv in Hz.
  assert (Hd : ∀ i, i ∈ isles → ph i = PhDone).
  { intros i Hi. destruct (decide (not_done (ph i))) as [H|H].
    - assert (Ha : i ∈ active ph) by (by apply elem_of_list_filter). rewrite Hz in Ha. by apply elem_of_nil in Ha.
    - destruct (ph i); cbn in H; naive_solver. }
  assert (Hp : ∀ i, i ∈ isles → phase_ok s i PhDone) by (intros i Hi; rewrite <- (Hd i Hi); by apply I).
  split; [|split; [|split]].
  - destruct (p_jobs s) as [|b js] eqn:Ej; [done|]. exfalso.
    assert (Hb : job_isle b ∈ isles) by (apply I; rewrite Ej; set_solver).
    destruct (Hp _ Hb) as (_ & H & _). apply (jobs_none _ _ H b); [rewrite Ej; set_solver|done].
  - destruct (p_todo s) as [|i l] eqn:Et; [done|]. exfalso. destruct (v_todo _ _ I) as [_ Hs].
    assert (Hi : i ∈ isles) by (apply Hs; rewrite Et; set_solver). destruct (Hp _ Hi) as (H & _). apply H.
    rewrite Et. set_solver.
  - intros i Hi. by destruct (Hp i Hi) as (_ & _ & ? & _).
  - apply map_eq. intros e. destruct (decide (Exists (λ i, e ∈ own i) isles)) as [Hex|Hex].
    + apply Exists_exists in Hex as (i & Hi & He). destruct (Hp i Hi) as (_ & _ & _ & A).
      rewrite A by done. symmetry. by apply seq_all_own; [apply Sep| | | |].
    + assert (Hn : ∀ i, i ∈ isles → e ∉ own i).
      { intros i Hi He. apply Hex. apply Exists_exists. eauto. }
      rewrite (v_rest _ _ I e Hn). symmetry. by apply seq_all_other.
Qed.

(** Something can be done as long as the counter is not zero. *)
Lemma progress s ph : inv s ph → 0 < p_count s → p_todo s ≠ [] ∨ p_jobs s ≠ [].
Proof.
  intros I Hz. rewrite (v_count _ _ I) in Hz. destruct (active ph) as [|i l] eqn:Ea; [cbn in Hz; lia|].
  assert (Hi : i ∈ active ph) by (rewrite Ea; set_solver). apply elem_of_list_filter in Hi as [Hd Hi].
  pose proof (v_phase _ _ I i Hi) as Hp. destruct (ph i) as [|c|l' d it|]; cbn in Hp.
  - left. destruct Hp as (H & _). intros E. rewrite E in H. by apply elem_of_nil in H.
  - right. destruct Hp as (_ & _ & H & _). intros E. by rewrite E in H.
  - right. destruct Hp as (_ & _ & _ & Hne & H & _). intros E. rewrite E in H. cbn in H.
    apply Permutation_nil in H. by apply fmap_nil_inv in H.
  - done.
Qed.
End Proofs.
