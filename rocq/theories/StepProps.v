(** C35: fixed steps. *)
From Coq Require Import QArith Qminmax Qround Lqa Sorted.
From Verif Require Import StepModel StepProofs.
Local Open Scope Q_scope.

(** Sequential: as long as no two updates are further apart than the cap
    allows, the steps of every history of updates are exactly the ones due, at
    the due times: the k-th at (start + k dt). *)
Theorem C35_steps_due : ∀ c s ts,
  0 < c_dt c → 0 <= sq_acc s → sq_acc s < c_dt c → sq_paused s = false →
  forward (sq_last s) ts → gaps_within (Qnat (c_cap c) * c_dt c) (sq_last s) ts →
  ∃ s' es, sq_run c s (Update <$> ts) = Ok (s', es) ∧
    Forall2 Qeq (step_times es) (grid (sq_timestamp s) (c_dt c) (whole (sq_timestamp s) (c_dt c) (List.last ts (sq_last s)))).
Proof. intros. by apply sq_run_main. Qed.
Print Assumptions C35_steps_due.

(** Hence they do not depend on how often the application updates. *)
Theorem C35_frame_rate_independent : ∀ c s ts1 ts2 s1 e1 s2 e2,
  0 < c_dt c → 0 <= sq_acc s → sq_acc s < c_dt c → sq_paused s = false →
  forward (sq_last s) ts1 → gaps_within (Qnat (c_cap c) * c_dt c) (sq_last s) ts1 →
  forward (sq_last s) ts2 → gaps_within (Qnat (c_cap c) * c_dt c) (sq_last s) ts2 →
  List.last ts1 (sq_last s) == List.last ts2 (sq_last s) →
  sq_run c s (Update <$> ts1) = Ok (s1, e1) → sq_run c s (Update <$> ts2) = Ok (s2, e2) →
  Forall2 Qeq (step_times e1) (step_times e2).
Proof.
  intros c s ts1 ts2 s1 e1 s2 e2 Hd A1 A2 Hp F1 G1 F2 G2 Hl R1 R2.
  destruct (sq_run_main c ts1 s Hd A1 A2 Hp F1 G1) as (? & ? & R1' & S1). rewrite R1 in R1'. injection R1' as <- <-.
  destruct (sq_run_main c ts2 s Hd A1 A2 Hp F2 G2) as (? & ? & R2' & S2). rewrite R2 in R2'. injection R2' as <- <-.
  eapply Forall2_Qeq_trans; [exact S1|]. apply Forall2_Qeq_sym.
  replace (whole (sq_timestamp s) (c_dt c) (List.last ts1 (sq_last s)))
    with (whole (sq_timestamp s) (c_dt c) (List.last ts2 (sq_last s))); [done|].
  unfold whole. f_equal. apply Qfloor_comp. by rewrite Hl.
Qed.
Print Assumptions C35_frame_rate_independent.

(** Whatever the gaps: the simulation timestamp is the start plus the whole
    steps that fit, so less than one step behind; the steps performed are at most
    those, at most the cap in each update, at strictly increasing times between
    the old and the new timestamp. *)
Theorem C35_clock : ∀ c ts s,
  0 < c_dt c → (0 < c_cap c)%nat → 0 <= sq_acc s → sq_paused s = false → forward (sq_last s) ts → ts ≠ [] →
  ∃ s' es, sq_run c s (Update <$> ts) = Ok (s', es) ∧
    let t := List.last ts (sq_last s) in
    sq_timestamp s' == sq_timestamp s + Qnat (whole (sq_timestamp s) (c_dt c) t) * c_dt c ∧
    sq_timestamp s' <= t ∧ t < sq_timestamp s' + c_dt c ∧
    (length (step_times es) ≤ whole (sq_timestamp s) (c_dt c) t)%nat ∧
    (length (step_times es) ≤ c_cap c * length ts)%nat ∧
    StronglySorted Qlt (step_times es) ∧ within (sq_timestamp s) (sq_timestamp s') (step_times es) ∧
    sq_last s' = t ∧ sq_paused s' = false ∧ 0 <= sq_acc s' ∧ sq_acc s' < c_dt c.
Proof. intros. by apply sq_run_times. Qed.
Print Assumptions C35_clock.

(** One update: it performs as many steps as are due, up to the cap. *)
Theorem C35_update : ∀ c s t,
  0 < c_dt c → (0 < c_cap c)%nat → 0 <= sq_acc s → sq_paused s = false → sq_last s <= t →
  ∃ s' es, sq_update c s t = Ok (s', es) ∧ sq_last s' = t ∧ sq_paused s' = false ∧ 0 <= sq_acc s' ∧ sq_acc s' < c_dt c ∧
    sq_timestamp s' == sq_timestamp s + Qnat (whole (sq_timestamp s) (c_dt c) t) * c_dt c ∧
    length (step_times es) = min (c_cap c) (whole (sq_timestamp s) (c_dt c) t) ∧
    StronglySorted Qlt (step_times es) ∧ within (sq_timestamp s) (sq_timestamp s') (step_times es).
Proof. intros. by apply sq_update_times. Qed.
Print Assumptions C35_update.

(** The presentation is always at one step before the given time: between the
    last state and the one before, never beyond. *)
Theorem C35_presentation : ∀ c s t,
  0 < c_dt c → 0 <= sq_acc s → sq_paused s = false → sq_last s <= t →
  ∃ s' es i, sq_update c s t = Ok (s', es) ∧ presents es = [i] ∧
    sq_timestamp s' + i == t - c_dt c ∧ - c_dt c <= i ∧ i < 0.
Proof.
  intros c s t Hd Ha Hp Ht. destruct (sq_update_eq c s t Hd Ha Hp Ht) as (s1 & e1 & E1 & L1 & P1 & A1 & A2 & N1 & T1 & S1 & i & P & Hi).
  exists s1, e1, i. unfold sq_timestamp in Hi |- *. rewrite L1 in *. split_and!; [done|done|lra..].
Qed.
Print Assumptions C35_presentation.

(** Paused: updates perform no step and change nothing; a requested step is
    performed. *)
Theorem C35_paused : ∀ c s ts,
  sq_paused s = true →
  ∃ es, sq_run c s (Update <$> ts) = Ok (s, es) ∧ step_times es = [] ∧
    ∀ t, ∃ s', sq_run c s [StepOnce t] = Ok (s', [Step t]) ∧ sq_paused s' = true.
Proof.
  intros c s ts Hp.
  assert (H : ∃ es, sq_run c s (Update <$> ts) = Ok (s, es) ∧ step_times es = []).
  { induction ts as [|t ts (es & E & S)]; [by exists []|]. exists ([Idle (sq_last s); Snap] ++ es). split; [|done].
    apply (sq_run_cons_ok _ _ (Update t) _ s); [|done]. cbn. unfold sq_update. by rewrite Hp. }
  destruct H as (es & E & S). exists es. split; [done|]. split; [done|]. intros t.
  exists (Stepper t (sq_acc s) true). split; [|done]. cbn. unfold sq_step. by rewrite Hp.
Qed.
Print Assumptions C35_paused.

(** Worker thread: the same, and its clock stays on the grid even when time goes
    backwards. *)
Theorem C35_worker_steps_due : ∀ c ts w,
  0 < c_dt c → wk_ok c w → forward (wk_last w) ts → gaps_within (Qnat (c_cap c) * c_dt c) (wk_last w) ts →
  ∃ w' es, wk_run c w (quiet ts) = Ok (w', es) ∧ wk_ok c w' ∧
    Forall2 Qeq (step_times es) (grid (wk_sim w) (c_dt c) (whole (wk_sim w) (c_dt c) (List.last ts (wk_last w)))).
Proof. intros. by apply wk_run_main. Qed.
Print Assumptions C35_worker_steps_due.

Theorem C35_worker_clock : ∀ c w t, 0 < c_dt c → wk_ok c w →
  ∃ w' es, wk_turn c w t [] = Ok (w', es) ∧ wk_ok c w' ∧ wk_sim w' <= t ∧ t < wk_sim w' + c_dt c ∧
    (∃ n : Z, wk_sim w' == wk_sim w + inject_Z n * c_dt c) ∧ (length (step_times es) ≤ c_cap c)%nat.
Proof.
  intros c w t Hd Hw. destruct (wk_turn_eq c w t Hd Hw) as (w' & es & E & O & L & T & B1 & B2 & S).
  exists w', es. split_and!; try done; [by eexists|]. apply Forall2_length in S. rewrite S, fmap_length, seq_length. apply effective_le.
Qed.
Print Assumptions C35_worker_clock.

(** The worker takes no account of the time it was paused: whatever its state,
    the turn that handles the resume message performs no step of its own and the
    clock restarts at that turn. *)
Theorem C35_worker_resume : ∀ c w t ms ts,
  0 < c_dt c → (∀ m, m ∈ ms → ∀ u, m ≠ MTimeSource u) →
  forward t ts → gaps_within (Qnat (c_cap c) * c_dt c) t ts →
  ∃ w1 e1 w2 e2, wk_turn c w t (ms ++ [MPause false]) = Ok (w1, e1) ∧ wk_run c w1 (quiet ts) = Ok (w2, e2) ∧
    step_times e1 = step_times (wk_msgs (Worker (wk_last w) t (wk_acc w) (wk_sim w) (wk_paused w)) ms).2 ∧
    Forall2 Qeq (step_times e2) (grid t (c_dt c) (whole t (c_dt c) (List.last ts t))).
Proof.
  intros c w t ms ts Hd Hms Hf Hg. destruct (wk_resume_main c w t ms Hd Hms) as (w1 & e1 & E1 & O1 & T1 & L1 & S1).
  rewrite <- L1 in Hf, Hg. destruct (wk_run_main c ts w1 Hd O1 Hf Hg) as (w2 & e2 & E2 & O2 & S2).
  exists w1, e1, w2, e2. split_and!; try done. eapply Forall2_Qeq_trans; [exact S2|]. rewrite L1.
  replace (whole t (c_dt c) (List.last ts t)) with (whole (wk_sim w1) (c_dt c) (List.last ts t)); [by apply grid_proper|].
  unfold whole. f_equal. apply Qfloor_comp. by rewrite T1.
Qed.
Print Assumptions C35_worker_resume.

Theorem C35_worker_paused : ∀ c ts w, wk_paused w = true → Forall (λ tm, Forall (λ m, m ≠ MPause false) tm.2) ts →
  ∃ w' es, wk_run c w ts = Ok (w', es) ∧ wk_paused w' = true ∧
    length (step_times es) = length (filter is_step_msg (concat (snd <$> ts))).
Proof. exact wk_run_paused. Qed.
Print Assumptions C35_worker_paused.

(** ** Concrete cases *)
Definition c35 : cfg := Cfg (1 # 2) 3.
Definition times_of (r : res (stepper * list ev)) : option (list Q) :=
  match r with Ok (_, es) => Some (Qred <$> step_times es) | _ => None end.
Definition wtimes_of (r : res (worker * list ev)) : option (list Q) :=
  match r with Ok (_, es) => Some (Qred <$> step_times es) | _ => None end.
(** Two slicings of the first 2.2 seconds; a gap beyond the cap of three. *)
Example C35_case :
  forward 0 [7 # 10; 9 # 10; 22 # 10] ∧ gaps_within (Qnat 3 * (1 # 2)) 0 [7 # 10; 9 # 10; 22 # 10] ∧
  times_of (sq_run c35 (sq_new 0) (Update <$> [7 # 10; 9 # 10; 22 # 10])) = Some [0; 1 # 2; 1; 3 # 2] ∧
  times_of (sq_run c35 (sq_new 0) (Update <$> [1; 22 # 10])) = Some [0; 1 # 2; 1; 3 # 2] ∧
  times_of (sq_run c35 (sq_new 0) (Update <$> [3; 35 # 10])) = Some [0; 1; 2; 3] ∧
  wtimes_of (wk_run c35 (wk_new 0) (quiet [7 # 10; 9 # 10; 22 # 10])) = Some [0; 1 # 2; 1; 3 # 2] ∧
  wk_ok c35 (wk_new 0).
Proof.
  split. { cbn. split_and!; try done; lra. }
  split. { cbn. unfold Qnat. cbn. split_and!; try done; unfold Qle; cbn; lia. }
  split; [by vm_compute|]. split; [by vm_compute|]. split; [by vm_compute|]. split; [by vm_compute|].
  unfold wk_ok; cbn. split_and!; try done; lra.
Qed.

(** Sequential: the time spent paused is simulated on resuming (up to the cap),
    unlike in the worker. *)
Theorem C35_pause_time_simulated_refuted :
  times_of (sq_run c35 (sq_new 0) [Update 1; Pause true; Update 2; Pause false; Update 2]) = Some [0; 1 # 2; 1; 3 # 2] ∧
  wtimes_of (wk_run c35 (wk_new 0) [(1, []); (1, [MPause true]); (2, []); (2, [MPause false]); (2, [])]) = Some [0; 1 # 2].
Proof. split; by vm_compute. Qed.
Print Assumptions C35_pause_time_simulated_refuted.

(** Sequential: when time goes back and forth, the same time is simulated again:
    six steps although at most two are due. *)
Theorem C35_time_backwards_refuted :
  times_of (sq_run c35 (sq_new 0) (Update <$> [1; 0; 1; 0; 1])) = Some [0; 1 # 2; 0; 1 # 2; 0; 1 # 2].
Proof. by vm_compute. Qed.
Print Assumptions C35_time_backwards_refuted.

(** Setting "not paused" again drops the time since the last step; repeated often
    enough the simulation stands still. *)
Theorem C35_unpause_drops_refuted :
  times_of (sq_run c35 (sq_new 0) [Update (4 # 10); Pause false; Update (8 # 10); Pause false; Update (12 # 10)]) = Some [].
Proof. by vm_compute. Qed.
Print Assumptions C35_unpause_drops_refuted.

(** Beyond the cap steps are lost: four of the seven due here. *)
Theorem C35_cap_drops_refuted :
  times_of (sq_run c35 (sq_new 0) [Update (35 # 10)]) = Some [0; 7 # 6; 7 # 3] ∧ whole 0 (1 # 2) (35 # 10) = 7%nat.
Proof. split; by vm_compute. Qed.
Print Assumptions C35_cap_drops_refuted.

(** A new time source does not reset the time since the last step: the next step
    of the worker comes early, at a time before the new source was set. *)
Theorem C35_time_source_refuted :
  wtimes_of (wk_run c35 (wk_new 0) [(4 # 10, []); (10, [MTimeSource 10]); (101 # 10, [])]) = Some [48 # 5].
Proof. by vm_compute. Qed.
Print Assumptions C35_time_source_refuted.
