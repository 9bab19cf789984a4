(** C18, C19, C20: job queue, worker, messages. *)
From Verif Require Import Outcome JobModel JobSpec JobProofs WorkerProofs MsgModel MsgSpec MsgProofs.

(** ** C18 *)
(** Whatever the threads do and however they interleave (with spurious
    wake-ups and any choice of the thread a notification wakes), at every moment:
    what entered is what left, in the same order, followed by what is queued;
    each pop returns the oldest job; a failed try_pop saw an empty queue; size is
    exact; and every thread's answers are those of an initial part of its
    operations, in order, one each. *)
Theorem C18_fifo progs sched : let s := q_run (q_init progs) sched in
  pushes (q_log s) = pops (q_log s) ++ q_jobs s ∧
  (∀ l1 t j l2, q_log s = l1 ++ EPop t j :: l2 → ∃ rest, pushes l1 = pops l1 ++ j :: rest) ∧
  (∀ l1 t l2, q_log s = l1 ++ EMiss t :: l2 → pushes l1 = pops l1) ∧
  (∀ l1 t n l2, q_log s = l1 ++ ESize t n :: l2 → length (pushes l1) = n + length (pops l1)) ∧
  (∀ t prog, progs !! t = Some prog → ∃ p done, q_thr s !! t = Some p ∧ prog = done ++ pending p ∧
    Forall2 answers (by_thread t (q_log s)) done).
Proof. exact (q_fifo progs sched). Qed.
Print Assumptions C18_fifo.
(** No wake-up is lost: schedules of threads that can act are bounded, and when
    none can, every thread has finished, or sleeps in pop on an empty queue. *)
Theorem C18_no_lost_wakeup progs l s : q_acts (q_init progs) l s →
  length l ≤ 3 * q_size progs ∧
  ((∃ t, q_can s t) ∨ (∀ t p, q_thr s !! t = Some p → p = QNext [] ∨ (∃ r, p = QSleep false r) ∧ q_jobs s = [])).
Proof. exact (q_no_lost_wakeup progs l s). Qed.
Print Assumptions C18_no_lost_wakeup.
Example C18_case :
  q_log (q_run (q_init [[QPush 5; QPush 6]; [QPop]; [QTry; QPop; QTry]]) [Go 1 0; Go 0 0; Go 2 0; Go 0 0; Go 1 0; Go 0 0; Go 0 0; Go 1 0; Go 2 0; Go 0 0; Go 2 0]) =
  [EPush 0 5; EPop 2 5; EPush 0 6; EPop 1 6].
Proof. reflexivity. Qed.
Example C18_acts_case : ∃ s, q_acts (q_init [[QPush 5]; [QPop]]) [Go 1 0; Go 0 0; Go 0 0; Go 1 0] s ∧ q_log s = [EPush 0 5; EPop 1 5].
Proof. eexists. split; [repeat (apply q_acts_cons; [exact I|]); apply q_acts_nil|reflexivity]. Qed.

(** ** C19 *)
(** Every job given to a worker was run, is being run or is queued; none twice,
    in the order of the pushes. *)
Theorem C19_jobs_run_in_order progs sched : let s := k_run (k_init progs) sched in
  pushed (k_log s) = ran (k_log s) ++ in_hand s ++ in_queue s.
Proof. exact (k_account progs sched). Qed.
Print Assumptions C19_jobs_run_in_order.
(** Once the worker has entered its loop, a stop that is still to come ends it:
    schedules of threads that can act are bounded and when none can the worker
    has left its loop (join returns). *)
Theorem C19_stop_terminates progs sched i p : let s0 := k_run (k_init progs) sched in
  k_running s0 = true → k_thr s0 ≠ RStart → k_cl s0 !! i = Some p → WStop ∈ rest_of p →
  ∃ bound, ∀ l s, k_acts s0 l s → length l ≤ bound ∧ (stuck s → k_thr s = RDone).
Proof. exact (k_stop_terminates progs sched i p). Qed.
Print Assumptions C19_stop_terminates.
Example C19_stop_case : let s0 := k_run (k_init [[WPush 3; WStop]]) [Some 0; Some 1] in
  k_running s0 = true ∧ k_cl s0 !! 0 = Some (CNotify true [WStop]) ∧
  ∃ s, k_acts s0 [1; 1; 1; 0; 0; 0; 0; 1; 1] s ∧ k_thr s = RDone ∧ k_log s = [Pushed 3; Stopped; Ran 3].
Proof. split_and!; [done..|]. eexists. split; [repeat (apply k_acts_cons; [exact I|]); apply k_acts_nil|done]. Qed.
(** A stop before the worker entered its loop is lost: the worker waits for ever. *)
Theorem C19_early_stop_refuted : ∃ sched, let s := k_run (k_init [[WStop]]) sched in
  stuck s ∧ k_thr s = RSleep false ∧ k_log s = [Stopped].
Proof.
  exists (Some <$> [1; 0; 1; 1; 0; 0; 0; 0; 0]). split_and!; [|done..]. intros [|[|i]]; by intros [].
Qed.
Print Assumptions C19_early_stop_refuted.
(** Jobs still queued when a stop takes effect are never run. *)
Theorem C19_stop_drops_jobs_refuted : ∃ sched, let s := k_run (k_init [[WPush 1; WPush 2; WStop]]) sched in
  stuck s ∧ k_thr s = RDone ∧ ran (k_log s) = [1] ∧ in_queue s = [2].
Proof.
  exists (Some <$> [0; 1; 1; 1; 1; 1; 1; 1; 1; 1; 0; 0; 0; 0]). split_and!; [|done..]. intros [|[|i]]; by intros [].
Qed.
Print Assumptions C19_stop_drops_jobs_refuted.
(** The job counter of a worker drops below zero, i.e. to the largest size_t,
    when a job finishes before its push has counted it. *)
Theorem C19_size_underflow_refuted : ∃ sched, let s := k_run (k_init [[WPush 1]]) sched in
  (k_size s = -1)%Z ∧ (k_size s mod 2 ^ 64 = 2 ^ 64 - 1)%Z.
Proof. exists (Some <$> [0; 1; 0; 0; 0]). by vm_compute. Qed.
Print Assumptions C19_size_underflow_refuted.
(** The dispatcher gives a job to exactly one worker, with the least of the sizes
    read; it fails its assertion exactly when all of two or more workers report
    the largest size. *)
Theorem C19_least_busy maxs start sizes : sizes ≠ [] → (∀ s, s ∈ sizes → (0 ≤ s ≤ maxs)%Z) →
  match async maxs start sizes with
  | Ok k => ∃ s, sizes !! k = Some s ∧ ∀ s', s' ∈ sizes → (s ≤ s')%Z
  | AssertFail => 2 ≤ length sizes ∧ ∀ s, s ∈ sizes → s = maxs
  | _ => False
  end.
Proof. exact (async_spec maxs start sizes). Qed.
Print Assumptions C19_least_busy.
Theorem C19_all_underflowed_refuted maxs start sizes :
  2 ≤ length sizes → (0 < maxs)%Z → (∀ s, s ∈ sizes → s = maxs) → async maxs start sizes = AssertFail.
Proof. exact (async_saturated maxs start sizes). Qed.
Print Assumptions C19_all_underflowed_refuted.
Example C19_least_case : async 100 7 [3; 2; 5; 2]%Z = Ok 3 ∧ async 100 5 [3; 2; 5; 0]%Z = Ok 3 ∧ async 100 2 [3; 2; 5; 2]%Z = Ok 3 ∧ async 100 1 [3; 2; 5; 2]%Z = Ok 1.
Proof. done. Qed.

(** ** C20 *)
(** At any moment of any history: what was sent to a live queue is what updates
    took from it, in order, followed by what waits; what a handle delivered,
    followed by what it still holds, is what it took, restricted to its types. *)
Theorem C20_messages_accounted ops s : m_run m_init ops = Ok s →
  (∀ q, alive s q → sent q (m_log s) = taken_by (reads s q) (m_log s) ++ waiting s q) ∧
  (∀ h d, m_handles s !! h = Some d →
    heard (h_types d) (taken_by (λ h', bool_decide (h' = h)) (m_log s)) = delivered h (m_log s) ++ heard (h_types d) (h_flight d)).
Proof. exact (m_account ops s). Qed.
Print Assumptions C20_messages_accounted.
(** With a single handle: delivered exactly once, in the order sent. *)
Theorem C20_delivered_once_in_order ops s h d : m_run m_init ops = Ok s →
  m_handles s !! h = Some d → alive s (h_queue d) → sole s h (h_queue d) →
  heard (h_types d) (sent (h_queue d) (m_log s)) = delivered h (m_log s) ++ heard (h_types d) (h_flight d ++ waiting s (h_queue d)).
Proof. exact (m_sole ops s h d). Qed.
Print Assumptions C20_delivered_once_in_order.
(** When an update ends, everything sent before it began was delivered. *)
Theorem C20_delivered_by_update ops1 ops2 h s1 s2 d : m_run m_init ops1 = Ok s1 → m_run s1 (MConsume h :: ops2) = Ok s2 →
  m_handles s2 !! h = Some d → h_flight d = [] → sole s2 h (h_queue d) →
  heard (h_types d) (sent (h_queue d) (m_log s1)) `prefix_of` delivered h (m_log s2).
Proof. exact (m_update ops1 ops2 h s1 s2 d). Qed.
Print Assumptions C20_delivered_by_update.
(** Nothing fails: only an update through a handle whose queue was destroyed, or
    nested in an update of the same handle, has no defined result. *)
Theorem C20_progress ops s o : m_run m_init ops = Ok s →
  match o with
  | MConsume h => ∃ d, m_handles s !! h = Some d ∧ h_flight d = [] ∧ alive s (h_queue d)
  | MDeliver h => ∃ d, m_handles s !! h = Some d
  | _ => True
  end → ∃ s', m_step s o = Ok s'.
Proof. exact (m_progress ops s o). Qed.
Print Assumptions C20_progress.
(** A message to an unknown name changes nothing. *)
Theorem C20_unknown_dropped s dst m : m_names s !! dst = None →
  ∃ s', m_step s (MSend dst m) = Ok s' ∧ m_objs s' = m_objs s ∧ m_handles s' = m_handles s ∧ m_names s' = m_names s ∧
  m_log s' = m_log s ++ [EDropped dst m].
Proof. intros H. simpl. unfold m_send. rewrite H. eexists. done. Qed.
Print Assumptions C20_unknown_dropped.
Example C20_case : ∃ s, m_run m_init [MMake 7 [1; 2]; MSend 7 (Msg 0 1 10); MSend 9 (Msg 0 1 11); MSend 7 (Msg 0 3 12); MConsume 0;
    MSend 7 (Msg 0 2 13); MDeliver 0; MDeliver 0] = Ok s ∧
  delivered 0 (m_log s) = [Msg 0 1 10] ∧ waiting s 0 = [Msg 0 2 13] ∧ m_handles s !! 0 = Some (Handle 0 [1; 2] []) ∧ sole s 0 0 ∧ alive s 0.
Proof.
  eexists. split; [vm_compute; reflexivity|]. split_and!; [done..| |by eexists]. intros [|h]; split; done.
Qed.
(** Two handles of the same name steal from each other (the library's own names
    are fixed, so two simulations in one process share them). *)
Theorem C20_shared_name_refuted : ∃ ops s, m_run m_init ops = Ok s ∧ sent 0 (m_log s) = [Msg 0 1 10] ∧
  delivered 0 (m_log s) = [] ∧ delivered 1 (m_log s) = [Msg 0 1 10] ∧ flight s 0 = [] ∧ waiting s 0 = [].
Proof.
  exists [MMake 7 [1]; MMake 7 [1]; MSend 7 (Msg 0 1 10); MConsume 1; MDeliver 1; MConsume 0; MDeliver 0]. eexists.
  split; [vm_compute; reflexivity|done].
Qed.
Print Assumptions C20_shared_name_refuted.
(** A handle made later for the same name receives what was left to the previous. *)
Theorem C20_leftover_refuted : ∃ ops s, m_run m_init (ops ++ [MMake 7 [1]; MConsume 1; MDeliver 1]) = Ok s ∧
  (∃ s0, m_run m_init ops = Ok s0 ∧ sent 0 (m_log s0) = [Msg 0 1 10]) ∧ delivered 1 (m_log s) = [Msg 0 1 10].
Proof.
  exists [MMake 7 [1]; MSend 7 (Msg 0 1 10)]. eexists. split; [vm_compute; reflexivity|]. split; [|done].
  eexists. split; [vm_compute; reflexivity|done].
Qed.
Print Assumptions C20_leftover_refuted.
(** After clear_queues the handles dangle. *)
Theorem C20_clear_refuted : ∃ ops s, m_run m_init ops = Ok s ∧ m_step s (MConsume 0) = UB.
Proof. exists [MMake 7 [1]; MClear]. eexists. split; [vm_compute; reflexivity|done]. Qed.
Print Assumptions C20_clear_refuted.
