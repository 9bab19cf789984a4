(** C16, C17: parallel tasks, for every schedule of the threads. *)
From Verif Require Import Outcome TaskModel TaskSpec TaskProofs.

(** ** C16 *)
(** Asynchronous form: at any moment of any schedule no error happened, no index
    was given out twice, none out of range, every range is non-empty and at most
    one chunk long, and once all jobs ended each index was processed once. *)
Theorem C16_async_coverage size workers sched : 0 < size → 0 < workers → ∃ chunk jobs s,
  async_params size workers = Ok (chunk, jobs) ∧ 0 < jobs ≤ workers ∧
  enqueue_task size workers sched = Ok s ∧ length (a_jobs s) = jobs ∧
  (∀ i, finished i (a_log s) ≤ started i (a_log s) ≤ 1) ∧ (∀ i, size ≤ i → started i (a_log s) = 0) ∧
  ranges_ok size chunk (a_log s) ∧
  (all_done_a s → ∀ i, i < size → started i (a_log s) = 1 ∧ finished i (a_log s) = 1).
Proof. exact (async_coverage size workers sched). Qed.
Print Assumptions C16_async_coverage.

(** Blocking form, also for an empty range and without workers. *)
Theorem C16_wait_coverage size workers sched : ∃ s, enqueue_task_wait size workers sched = Ok s ∧
  (∀ i, finished i (w_log s) ≤ started i (w_log s) ≤ 1) ∧ (∀ i, size ≤ i → started i (w_log s) = 0) ∧
  ranges_ok size (wait_params size workers).1 (w_log s) ∧
  (0 < returns (w_log s) → ∀ i, i < size → started i (w_log s) = 1 ∧ finished i (w_log s) = 1).
Proof. exact (wait_coverage size workers sched). Qed.
Print Assumptions C16_wait_coverage.

Example C16_async_case : ∃ s, enqueue_task 5 2 [0;1;1;1;0;0;1;0;1;1;0;0] = Ok s ∧ all_done_a s ∧
  a_log s = [Start 0 3; Start 3 5; Finish 3 5; Finish 0 3; Complete; Release].
Proof.
  eexists. split; [vm_compute; reflexivity|]. split; [|reflexivity].
  intros j. simpl. rewrite !elem_of_cons, elem_of_nil. naive_solver.
Qed.
Example C16_wait_case : ∃ s, enqueue_task_wait 5 1 [0;1;1;0;0;0;0;1;1;1;1;0] = Ok s ∧
  w_log s = [Start 0 2; Start 2 4; Finish 2 4; Finish 0 2; Start 4 5; Finish 4 5; Release; Returned].
Proof. eexists. split; vm_compute; reflexivity. Qed.

(** ** C17 *)
(** Asynchronous form, for every schedule: the completion callback ran at most
    once and only after every index had finished; the context was released at
    most once, after the completion, and nothing happens afterwards ([Ok]: no
    job touches a released context).  When all jobs ended both happened. *)
Theorem C17_async_completion size workers sched : 0 < size → 0 < workers → ∃ s,
  enqueue_task size workers sched = Ok s ∧
  completions (a_log s) ≤ 1 ∧ releases (a_log s) ≤ 1 ∧ returns (a_log s) = 0 ∧
  after_all_work size Complete (a_log s) ∧
  (∀ l1 l2, a_log s = l1 ++ Release :: l2 → l2 = [] ∧ completions l1 = 1 ∧ ∀ i, i < size → finished i l1 = 1) ∧
  (0 < releases (a_log s) → all_done_a s) ∧
  (all_done_a s → completions (a_log s) = 1 ∧ releases (a_log s) = 1).
Proof. exact (async_completion size workers sched). Qed.
Print Assumptions C17_async_completion.
(** It always gets there: any schedule of jobs that can act is bounded, and as
    long as a job has not ended one can act. *)
Theorem C17_async_terminates size workers chunk jobs l s : 0 < size → async_params size workers = Ok (chunk, jobs) →
  acts (a_step size chunk) can_act_a (async_init jobs) l s →
  length l ≤ 3 * size + 5 * jobs ∧ (all_done_a s ∨ ∃ i, can_act_a s i).
Proof. exact (async_terminates size workers chunk jobs l s). Qed.
Print Assumptions C17_async_terminates.
(** An empty range is never completed and its context never released. *)
Theorem C17_size_zero_refuted workers sched : 0 < workers → ∃ s,
  enqueue_task 0 workers sched = Ok s ∧ all_done_a s ∧ a_log s = [] ∧ a_freed s = false.
Proof. exact (async_size_zero workers sched). Qed.
Print Assumptions C17_size_zero_refuted.
(** Without workers the number of jobs cannot be computed: division by zero. *)
Theorem C17_no_workers_refuted size sched : enqueue_task size 0 sched = UB.
Proof. reflexivity. Qed.
Print Assumptions C17_no_workers_refuted.

(** Blocking form, for every schedule: it returns at most once, only after every
    index had finished and every job ended (nobody touches the context
    afterwards), and the assertion of the context's destructor holds. *)
Theorem C17_wait_completion size workers sched : ∃ s, enqueue_task_wait size workers sched = Ok s ∧
  returns (w_log s) ≤ 1 ∧ after_all_work size Returned (w_log s) ∧
  (∀ l1 l2, w_log s = l1 ++ Returned :: l2 → l2 = []) ∧
  (returns (w_log s) = 1 ↔ all_done_w s).
Proof. exact (wait_completion size workers sched). Qed.
Print Assumptions C17_wait_completion.
(** No lost wake-up and no deadlock: a schedule of threads that can act is
    bounded and never gets stuck before the caller returned. *)
Theorem C17_wait_terminates size workers chunk jobs l s : wait_params size workers = (chunk, jobs) →
  acts (w_step size chunk jobs) can_act_w (wait_init jobs) l s →
  length l ≤ 3 * size + 5 * S jobs ∧ (all_done_w s ∨ ∃ i, can_act_w s i).
Proof. exact (wait_terminates size workers chunk jobs l s). Qed.
Print Assumptions C17_wait_terminates.

Example C17_acts_case : ∃ s, acts (a_step 1 1) can_act_a (async_init 1) [0;0;0;0;0;0] s ∧ all_done_a s ∧
  a_log s = [Start 0 1; Finish 0 1; Complete; Release].
Proof.
  eexists. split.
  - do 6 (eapply acts_cons; [eexists; split_and!; [reflexivity|done..]|reflexivity|]). apply acts_nil.
  - split; [|done]. intros j. simpl. rewrite !elem_of_cons, elem_of_nil. naive_solver.
Qed.
Example C17_sleep_case : ∃ s, acts (w_step 2 1 1) can_act_w (wait_init 1) [0;1;0;0;0;1;1;1;0] s ∧ returns (w_log s) = 1.
Proof. eexists. split; [do 9 (eapply acts_cons; [eexists; split_and!; [reflexivity|done..]|reflexivity|]); apply acts_nil|reflexivity]. Qed.
