(** Proofs about the job queue. *)
From Verif Require Import Outcome JobModel JobSpec TaskProofs.

Lemma alter_as_insert {A} (f : A → A) (l : list A) i x : l !! i = Some x → alter f i l = <[i := f x]> l.
Proof. revert i. induction l as [|y l IH]; intros [|i] H; simplify_eq/=; [done|]. f_equal. by apply IH. Qed.
Lemma alter_none {A} (f : A → A) (l : list A) i : l !! i = None → alter f i l = l.
Proof. revert i. induction l as [|y l IH]; intros [|i] H; simplify_eq/=; [done..|]. f_equal. by apply IH. Qed.
Lemma alter_same {A} (f : A → A) (l : list A) i x : l !! i = Some x → f x = x → alter f i l = l.
Proof. intros H E. rewrite (alter_as_insert _ _ _ _ H), E. by apply list_insert_id. Qed.

Lemma elem_of_sleepers l u : u ∈ sleepers l ↔ ∃ r, l !! u = Some (QSleep false r).
Proof.
  unfold sleepers. rewrite elem_of_list_filter, elem_of_seq. split.
  - intros [H Hu]. destruct (l !! u) as [p|] eqn:E; simpl in H; [|done]. destruct p as [| |[] r]; try done. by exists r.
  - intros (r & E). rewrite E. split; [done|]. apply lookup_lt_Some in E. lia.
Qed.

(** The shape of a step. *)
Inductive qshape (s : qst) : qlabel → qst → Prop :=
| sh_push t c j r : q_thr s !! t = Some (QNext (QPush j :: r)) →
  qshape s (Go t c) (QSt (q_jobs s ++ [j]) (<[t := QNotify r]> (q_thr s)) (q_log s ++ [EPush t j]))
| sh_notify_none t c r : q_thr s !! t = Some (QNotify r) → (∀ u r', q_thr s !! u ≠ Some (QSleep false r')) →
  qshape s (Go t c) (QSt (q_jobs s) (<[t := QNext r]> (q_thr s)) (q_log s))
| sh_notify t c r u r' : q_thr s !! t = Some (QNotify r) → q_thr s !! u = Some (QSleep false r') → t ≠ u →
  qshape s (Go t c) (QSt (q_jobs s) (<[u := QSleep true r']> (<[t := QNext r]> (q_thr s))) (q_log s))
| sh_pop t c p r j js : q_thr s !! t = Some p → p = QNext (QPop :: r) ∨ p = QSleep true r ∨ p = QNext (QTry :: r) → q_jobs s = j :: js →
  qshape s (Go t c) (QSt js (<[t := QNext r]> (q_thr s)) (q_log s ++ [EPop t j]))
| sh_block t c p r : q_thr s !! t = Some p → p = QNext (QPop :: r) ∨ p = QSleep true r → q_jobs s = [] →
  qshape s (Go t c) (QSt [] (<[t := QSleep false r]> (q_thr s)) (q_log s))
| sh_miss t c r : q_thr s !! t = Some (QNext (QTry :: r)) → q_jobs s = [] →
  qshape s (Go t c) (QSt [] (<[t := QNext r]> (q_thr s)) (q_log s ++ [EMiss t]))
| sh_size t c r : q_thr s !! t = Some (QNext (QSize :: r)) →
  qshape s (Go t c) (QSt (q_jobs s) (<[t := QNext r]> (q_thr s)) (q_log s ++ [ESize t (length (q_jobs s))]))
| sh_none t c : ¬ q_can s t → qshape s (Go t c) s
| sh_wake t r : q_thr s !! t = Some (QSleep false r) →
  qshape s (Spurious t) (QSt (q_jobs s) (<[t := QSleep true r]> (q_thr s)) (q_log s))
| sh_nowake t : qshape s (Spurious t) s.

Lemma q_step_shape s l : qshape s l (q_step s l).
Proof.
  destruct l as [t c|t]; simpl.
  - destruct (q_thr s !! t) as [p|] eqn:E; [|apply sh_none; unfold q_can; rewrite E; by intros []].
    destruct p as [[|[j| | |] r]|r|[] r].
    + apply sh_none. unfold q_can. rewrite E. by intros [].
    + by apply sh_push.
    + unfold q_take. destruct (q_jobs s) eqn:Ej.
      * unfold q_set. rewrite Ej. eapply sh_block; eauto.
      * eapply sh_pop; eauto.
    + destruct (q_jobs s) eqn:Ej; [by eapply sh_miss|eapply sh_pop; eauto].
    + by apply sh_size.
    + set (w := sleepers _). destruct (w !! (c mod length w)) as [u|] eqn:Eu.
      * assert (Hu : u ∈ w) by (by eapply elem_of_list_lookup_2). apply elem_of_sleepers in Hu as (r' & Hu).
        simpl in Hu. apply list_lookup_insert_Some in Hu as [(_ & ? & _)|[Hn Hu]]; [done|].
        unfold q_set. cbn [q_thr q_jobs q_log]. rewrite (alter_as_insert wake _ u (QSleep false r')) by (by rewrite list_lookup_insert_ne).
        cbn [wake]. by apply sh_notify.
      * apply sh_notify_none; [done|]. intros u r' Hu. assert (Hin : u ∈ w).
        { apply elem_of_sleepers. exists r'. simpl. rewrite list_lookup_insert_ne; [done|]. intros ->. rewrite E in Hu. done. }
        apply lookup_ge_None in Eu. assert (length w ≠ 0) by (intros H0; apply nil_length_inv in H0; rewrite H0 in Hin; by apply elem_of_nil in Hin).
        pose proof (Nat.mod_upper_bound c (length w)). lia.
    + unfold q_take. destruct (q_jobs s) eqn:Ej.
      * unfold q_set. rewrite Ej. eapply sh_block; eauto.
      * eapply sh_pop; eauto.
    + apply sh_none. unfold q_can. rewrite E. by intros [].
  - destruct (q_thr s !! t) as [p|] eqn:E.
    + destruct p as [| |[] r].
      1-3: rewrite (alter_same wake _ _ _ E) by done; destruct s; apply sh_nowake.
      rewrite (alter_as_insert wake _ _ _ E). by apply sh_wake.
    + rewrite alter_none by done. destruct s. apply sh_nowake.
Qed.

(** ** Invariants *)
Definition qwake (p : qpc) : nat := match p with QNotify _ | QSleep true _ => 1 | _ => 0 end.
Record qinv (progs : list (list qop)) (s : qst) : Prop := {
  qi_fifo : pushes (q_log s) = pops (q_log s) ++ q_jobs s;
  qi_pop l1 t j l2 : q_log s = l1 ++ EPop t j :: l2 → ∃ rest, pushes l1 = pops l1 ++ j :: rest;
  qi_miss l1 t l2 : q_log s = l1 ++ EMiss t :: l2 → pushes l1 = pops l1;
  qi_size l1 t n l2 : q_log s = l1 ++ ESize t n :: l2 → length (pushes l1) = n + length (pops l1);
  qi_len : length (q_thr s) = length progs;
  qi_prog t prog : progs !! t = Some prog → ∃ p done, q_thr s !! t = Some p ∧ prog = done ++ pending p ∧ Forall2 answers (by_thread t (q_log s)) done;
  qi_wake t r : q_thr s !! t = Some (QSleep false r) → length (q_jobs s) ≤ sum qwake (q_thr s);
}.

Lemma snoc_split {A} (l l1 l2 : list A) v w : l ++ [v] = l1 ++ w :: l2 → (l1 = l ∧ v = w ∧ l2 = []) ∨ ∃ l2', l2 = l2' ++ [v] ∧ l = l1 ++ w :: l2'.
Proof.
  intros E. destruct l2 as [|z l2 _] using rev_ind.
  - apply app_inj_tail in E as [-> ->]. by left.
  - change (w :: l2 ++ [z]) with ((w :: l2) ++ [z]) in E. rewrite (assoc_L (++)) in E.
    apply app_inj_tail in E as [-> ->]. right. by exists l2.
Qed.


Lemma prog_same progs s thr t p p' log : qinv progs s → q_thr s !! t = Some p → log = q_log s → thr = <[t := p']> (q_thr s) → pending p' = pending p →
  ∀ u prog, progs !! u = Some prog → ∃ p done, thr !! u = Some p ∧ prog = done ++ pending p ∧ Forall2 answers (by_thread u log) done.
Proof.
  intros I Et -> -> Ep u prog Hu. destruct (qi_prog _ _ I u prog Hu) as (q & done & Eq & -> & F).
  destruct (decide (u = t)) as [->|Hn].
  - rewrite Et in Eq. simplify_eq. exists p', done. rewrite list_lookup_insert by (by eapply lookup_lt_Some). by rewrite Ep.
  - exists q, done. by rewrite list_lookup_insert_ne.
Qed.
Lemma prog_answer progs s thr t p p' o log e : qinv progs s → q_thr s !! t = Some p → log = q_log s ++ [e] → thr = <[t := p']> (q_thr s) →
  pending p = o :: pending p' → answers e o → ev_thread e = t →
  ∀ u prog, progs !! u = Some prog → ∃ p done, thr !! u = Some p ∧ prog = done ++ pending p ∧ Forall2 answers (by_thread u log) done.
Proof.
  intros I Et -> -> Ep Ha He u prog Hu. destruct (qi_prog _ _ I u prog Hu) as (q & done & Eq & -> & F).
  unfold by_thread. rewrite filter_app. destruct (decide (u = t)) as [->|Hn].
  - rewrite Et in Eq. simplify_eq. exists p', (done ++ [o]). rewrite list_lookup_insert by (by eapply lookup_lt_Some).
    split; [done|]. split; [by rewrite Ep, <- (assoc_L (++))|]. apply Forall2_app; [done|]. rewrite filter_cons_True by done. by repeat constructor.
  - exists q, done. rewrite list_lookup_insert_ne by done. split; [done|]. split; [done|].
    rewrite filter_cons_False by congruence. rewrite filter_nil. by rewrite (right_id_L [] (++)).
Qed.

Lemma pushes_app l l' : pushes (l ++ l') = pushes l ++ pushes l'.
Proof. unfold pushes. apply omap_app. Qed.
Lemma pops_app l l' : pops (l ++ l') = pops l ++ pops l'.
Proof. unfold pops. apply omap_app. Qed.

Lemma qinv_step progs s l : qinv progs s → qinv progs (q_step s l).
Proof.
  intros I. destruct (q_step_shape s l) as [t c j r E|t c r E Hno|t c r u r' E Eu Hne|t c p r j js E Hp Ej|t c p r E Hp Ej|t c r E Ej|t c r E|t c Hc|t r E|t]; try done.
  - (* push *)
    constructor; cbn [q_jobs q_thr q_log].
    + rewrite pushes_app, pops_app, (qi_fifo _ _ I). simpl. by rewrite (right_id_L [] (++)), (assoc_L (++)).
    + intros l1 t' j' l2 H. apply snoc_split in H as [(_ & ? & _)|(l2' & _ & H)]; [done|]. by eapply qi_pop.
    + intros l1 t' l2 H. apply snoc_split in H as [(_ & ? & _)|(l2' & _ & H)]; [done|]. by eapply qi_miss.
    + intros l1 t' n l2 H. apply snoc_split in H as [(_ & ? & _)|(l2' & _ & H)]; [done|]. by eapply qi_size.
    + rewrite insert_length. apply I.
    + by eapply prog_answer.
    + intros u r' Hu. apply list_lookup_insert_Some in Hu as [(_ & ? & _)|[Hn Hu]]; [done|].
      pose proof (qi_wake _ _ I u r' Hu). pose proof (sum_insert qwake _ _ _ (QNotify r) E) as S. cbn [qwake] in S. rewrite app_length. simpl. lia.
  - (* notify, nobody waits *)
    constructor; cbn [q_jobs q_thr q_log]; try by apply I.
    + rewrite insert_length. apply I.
    + by eapply prog_same.
    + intros u r' Hu. apply list_lookup_insert_Some in Hu as [(_ & ? & _)|[Hn Hu]]; [done|]. by apply Hno in Hu.
  - constructor; cbn [q_jobs q_thr q_log]; try by apply I.
    + rewrite !insert_length. apply I.
    + assert (I' : qinv progs s) by done. 
      intros v prog Hv. destruct (qi_prog _ _ I v prog Hv) as (q & done & Eq & -> & F).
      destruct (decide (v = u)) as [->|Hvu].
      * rewrite Eu in Eq. simplify_eq. exists (QSleep true r'), done. rewrite list_lookup_insert; [done|]. rewrite insert_length. by eapply lookup_lt_Some.
      * rewrite list_lookup_insert_ne by done. destruct (decide (v = t)) as [->|Hvt].
        -- rewrite E in Eq. simplify_eq. exists (QNext r), done. rewrite list_lookup_insert; [done|]. by eapply lookup_lt_Some.
        -- exists q, done. by rewrite list_lookup_insert_ne.
    + intros v r2 Hv. pose proof (qi_wake _ _ I u r' Eu) as H.
      pose proof (sum_insert qwake _ _ _ (QNext r) E) as S. cbn [qwake] in S.
      assert (Eu' : <[t := QNext r]> (q_thr s) !! u = Some (QSleep false r')) by (by rewrite list_lookup_insert_ne).
      pose proof (sum_insert qwake _ _ _ (QSleep true r') Eu') as S2. cbn [qwake] in S2. lia.
  - (* pop or try_pop *)
    assert (Hpe : ∃ o, pending p = o :: pending (QNext r) ∧ answers (EPop t j) o ∧ qwake p ≤ 1).
    { destruct Hp as [->|[->| ->]]; simpl; eauto. }
    destruct Hpe as (o & Hpe & Ha & Hq).
    constructor; cbn [q_jobs q_thr q_log].
    + rewrite pushes_app, pops_app, (qi_fifo _ _ I), Ej. simpl. by rewrite (right_id_L [] (++)), <- (assoc_L (++)).
    + intros l1 t' j' l2 H. apply snoc_split in H as [(-> & ? & _)|(l2' & _ & H)]; [|by eapply qi_pop]. simplify_eq. exists js. rewrite (qi_fifo _ _ I). by rewrite Ej.
    + intros l1 t' l2 H. apply snoc_split in H as [(_ & ? & _)|(l2' & _ & H)]; [done|]. by eapply qi_miss.
    + intros l1 t' n l2 H. apply snoc_split in H as [(_ & ? & _)|(l2' & _ & H)]; [done|]. by eapply qi_size.
    + rewrite insert_length. apply I.
    + by eapply prog_answer.
    + intros u r' Hu. apply list_lookup_insert_Some in Hu as [(_ & ? & _)|[Hn Hu]]; [done|].
      pose proof (qi_wake _ _ I u r' Hu) as H. rewrite Ej in H. pose proof (sum_insert qwake _ _ _ (QNext r) E) as S. cbn [qwake] in S. simpl in H. lia.
  - (* block *)
    assert (Hpe : pending (QSleep false r) = pending p) by (destruct Hp as [->| ->]; done).
    constructor; cbn [q_jobs q_thr q_log]; try by apply I.
    + rewrite (qi_fifo _ _ I). by rewrite Ej.
    + rewrite insert_length. apply I.
    + by eapply prog_same.
    + intros u r' Hu. simpl. lia.
  - (* miss *)
    constructor; cbn [q_jobs q_thr q_log].
    + rewrite pushes_app, pops_app, (qi_fifo _ _ I), Ej. simpl. by rewrite !(right_id_L [] (++)).
    + intros l1 t' j' l2 H. apply snoc_split in H as [(_ & ? & _)|(l2' & _ & H)]; [done|]. by eapply qi_pop.
    + intros l1 t' l2 H. apply snoc_split in H as [(-> & ? & _)|(l2' & _ & H)]; [|by eapply qi_miss]. rewrite (qi_fifo _ _ I), Ej. by rewrite (right_id_L [] (++)).
    + intros l1 t' n l2 H. apply snoc_split in H as [(_ & ? & _)|(l2' & _ & H)]; [done|]. by eapply qi_size.
    + rewrite insert_length. apply I.
    + by eapply prog_answer.
    + intros u r' Hu. simpl. lia.
  - (* size *)
    constructor; cbn [q_jobs q_thr q_log].
    + rewrite pushes_app, pops_app, (qi_fifo _ _ I). simpl. by rewrite !(right_id_L [] (++)).
    + intros l1 t' j' l2 H. apply snoc_split in H as [(_ & ? & _)|(l2' & _ & H)]; [done|]. by eapply qi_pop.
    + intros l1 t' l2 H. apply snoc_split in H as [(_ & ? & _)|(l2' & _ & H)]; [done|]. by eapply qi_miss.
    + intros l1 t' n l2 H. apply snoc_split in H as [(-> & ? & _)|(l2' & _ & H)]; [|by eapply qi_size]. simplify_eq. rewrite (qi_fifo _ _ I), app_length. lia.
    + rewrite insert_length. apply I.
    + by eapply prog_answer.
    + intros u r' Hu. apply list_lookup_insert_Some in Hu as [(_ & ? & _)|[Hn Hu]]; [done|].
      pose proof (qi_wake _ _ I u r' Hu). pose proof (sum_insert qwake _ _ _ (QNext r) E) as S. cbn [qwake] in S. lia.
  - (* spurious *)
    constructor; cbn [q_jobs q_thr q_log]; try by apply I.
    + rewrite insert_length. apply I.
    + by eapply prog_same.
    + intros u r' Hu. apply list_lookup_insert_Some in Hu as [(_ & ? & _)|[Hn Hu]]; [done|].
      pose proof (qi_wake _ _ I u r' Hu). pose proof (sum_insert qwake _ _ _ (QSleep true r) E) as S. cbn [qwake] in S. lia.
Qed.

Lemma qinv_init progs : qinv progs (q_init progs).
Proof.
  constructor; unfold q_init; cbn [q_jobs q_thr q_log].
  - done.
  - intros l1 ? ? ? H. by destruct l1.
  - intros l1 ? ? H. by destruct l1.
  - intros l1 ? ? ? H. by destruct l1.
  - apply fmap_length.
  - intros t prog H. exists (QNext prog), []. rewrite list_lookup_fmap, H. split_and!; [done..|]. constructor.
  - intros t r H. rewrite list_lookup_fmap in H. by destruct (progs !! t).
Qed.
Lemma qinv_run progs s l : qinv progs s → qinv progs (q_run s l).
Proof. unfold q_run. revert s. induction l as [|x l IH]; intros s I; [done|]. simpl. apply IH. by apply qinv_step. Qed.

Definition qweight (p : qpc) : nat :=
  match p with QNext r => 3 * length r | QNotify r => 3 * length r + 2 | QSleep false r => 3 * length r + 1 | QSleep true r => 3 * length r + 2 end.
Lemma q_step_weight s t c : q_can s t → sum qweight (q_thr (q_step s (Go t c))) < sum qweight (q_thr s).
Proof.
  intros Hc. remember (Go t c) as lb eqn:Hlb.
  destruct (q_step_shape s lb) as [t' c' j r E|t' c' r E Hno|t' c' r u r' E Eu Hne|t' c' p r j js E Hp Ej|t' c' p r E Hp Ej|t' c' r E Ej|t' c' r E|t' c' Hc'|t' r E|t']; simplify_eq; cbn [q_thr]; try done.
  - pose proof (sum_insert qweight _ _ _ (QNotify r) E) as S. simpl in S. lia.
  - pose proof (sum_insert qweight _ _ _ (QNext r) E) as S. simpl in S. lia.
  - pose proof (sum_insert qweight _ _ _ (QNext r) E) as S. simpl in S.
    assert (Eu' : <[t := QNext r]> (q_thr s) !! u = Some (QSleep false r')) by (by rewrite list_lookup_insert_ne).
    pose proof (sum_insert qweight _ _ _ (QSleep true r') Eu') as S2. simpl in S2. lia.
  - pose proof (sum_insert qweight _ _ _ (QNext r) E) as S. destruct Hp as [->|[->| ->]]; simpl in S; lia.
  - pose proof (sum_insert qweight _ _ _ (QSleep false r) E) as S. destruct Hp as [->| ->]; simpl in S; lia.
  - pose proof (sum_insert qweight _ _ _ (QNext r) E) as S. simpl in S. lia.
  - pose proof (sum_insert qweight _ _ _ (QNext r) E) as S. simpl in S. lia.
Qed.
Lemma q_acts_run s l s' : q_acts s l s' → s' = q_run s l ∧ length l + sum qweight (q_thr s') ≤ sum qweight (q_thr s).
Proof.
  induction 1 as [|s t c l s' Hc _ [-> IH]]; [done|]. split; [done|]. pose proof (q_step_weight s t c Hc). simpl in *. lia.
Qed.
Lemma q_fifo progs sched : let s := q_run (q_init progs) sched in
  pushes (q_log s) = pops (q_log s) ++ q_jobs s ∧
  (∀ l1 t j l2, q_log s = l1 ++ EPop t j :: l2 → ∃ rest, pushes l1 = pops l1 ++ j :: rest) ∧
  (∀ l1 t l2, q_log s = l1 ++ EMiss t :: l2 → pushes l1 = pops l1) ∧
  (∀ l1 t n l2, q_log s = l1 ++ ESize t n :: l2 → length (pushes l1) = n + length (pops l1)) ∧
  (∀ t prog, progs !! t = Some prog → ∃ p done, q_thr s !! t = Some p ∧ prog = done ++ pending p ∧ Forall2 answers (by_thread t (q_log s)) done).
Proof. intros s. assert (I : qinv progs s) by (apply qinv_run, qinv_init). destruct I. auto 10. Qed.
Lemma q_no_lost_wakeup progs l s : q_acts (q_init progs) l s →
  length l ≤ 3 * q_size progs ∧
  ((∃ t, q_can s t) ∨ (∀ t p, q_thr s !! t = Some p → p = QNext [] ∨ (∃ r, p = QSleep false r) ∧ q_jobs s = [])).
Proof.
  intros H. apply q_acts_run in H as [Hs Hl]. assert (I : qinv progs s) by (subst s; apply qinv_run, qinv_init). split.
  - assert (W : sum qweight (q_thr (q_init progs)) = 3 * q_size progs); [|lia]. unfold q_init, q_size. cbn [q_thr].
    clear. induction progs as [|x p IH]; [done|]. cbn [fmap list_fmap sum_list_with qweight] in *. rewrite IH. lia.
  - destruct (decide (0 < sum (λ p, match p with QNext (_ :: _) | QNotify _ | QSleep true _ => 1 | _ => 0 end) (q_thr s))) as [P|P].
    + left. apply sum_pos in P as (t & p & E & Hp). exists t. unfold q_can. rewrite E. destruct p as [[]| |[]]; simpl in *; try done; lia.
    + right. intros t p E. assert (P0 : sum (λ p, match p with QNext (_ :: _) | QNotify _ | QSleep true _ => 1 | _ => 0 end) (q_thr s) = 0) by lia.
      assert (Hz := proj1 (sum_zero _ _) P0). pose proof (Hz p (elem_of_list_lookup_2 _ _ _ E)) as Hp.
      destruct p as [[]|r|[] r]; simpl in *; try done; [by left|]. right. split; [by exists r|].
      pose proof (qi_wake _ _ I t r E) as Hw. assert (sum qwake (q_thr s) = 0).
      { apply sum_zero. intros q Hq. specialize (Hz q Hq). by destruct q as [[]| |[]]. }
      apply nil_length_inv. lia.
Qed.
