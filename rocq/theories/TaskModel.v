(** Model of parallel tasks (src/edyn/context/task.cpp) by interleaving.
    A step of a thread is one access to shared state; accesses are sequentially
    consistent (the code uses relaxed atomics: effects of the memory model are
    outside this model).  Jobs may start at any time: the order in which
    workers pick them up, and jobs sharing a worker, are particular schedules. *)
From Verif Require Import Outcome.

(** What an outside observer sees. *)
Inductive event :=
| Start (b e : nat)      (* task(b, e) called *)
| Finish (b e : nat)     (* task(b, e) returned *)
| Complete               (* completion() called *)
| Release                (* context deleted (async) or destroyed on return (wait) *)
| Returned.              (* enqueue_task_wait_default returned *)

(** ** enqueue_task_default *)
(** Program point of a job, task.cpp:121-156. *)
Inductive jst :=
| JFetch                 (* about to fetch_add current *)
| JRun (b e : nat)       (* inside task(b, e) *)
| JCount (p : nat)       (* about to fetch_add completed_counter *)
| JComplete              (* about to call completion *)
| JRef                   (* about to fetch_sub ref_counter *)
| JDelete                (* about to delete the context *)
| JDone.
(** task.cpp:94-119 *)
Record actx := ACtx { a_cur : nat; a_comp : nat; a_ref : nat; a_freed : bool; a_jobs : list jst; a_log : list event }.

Section async.
Context (size chunk : nat).
Definition a_set (s : actx) (i : nat) (j : jst) : actx :=
  ACtx (a_cur s) (a_comp s) (a_ref s) (a_freed s) (<[i := j]> (a_jobs s)) (a_log s).
Definition a_emit (s : actx) (e : event) : actx :=
  ACtx (a_cur s) (a_comp s) (a_ref s) (a_freed s) (a_jobs s) (a_log s ++ [e]).
(** One step of job [i]; a finished or unknown job does nothing.  Any access to
    the context after its deletion is [UB]. *)
Definition a_step (s : actx) (i : nat) : res actx :=
  match a_jobs s !! i with
  | None | Some JDone => Ok s
  | Some j =>
    _ ← require_ (negb (a_freed s));
    match j with
    | JFetch => (* task.cpp:129-136 *)
      let b := a_cur s in
      let e := min (b + chunk) size in
      let s := ACtx (b + chunk) (a_comp s) (a_ref s) (a_freed s) (a_jobs s) (a_log s) in
      if decide (e ≤ b) then Ok (a_set s i JRef) else Ok (a_emit (a_set s i (JRun b e)) (Start b e))
    | JRun b e => Ok (a_emit (a_set s i (JCount (e - b))) (Finish b e)) (* task.cpp:136 *)
    | JCount p => (* task.cpp:138-147; last - first = size *)
      let c := a_comp s + p in
      _ ← assert_ (bool_decide (c ≤ size));
      let s := ACtx (a_cur s) c (a_ref s) (a_freed s) (a_jobs s) (a_log s) in
      Ok (a_set s i (if decide (c = size) then JComplete else JFetch))
    | JComplete => Ok (a_emit (a_set s i JRef) Complete) (* task.cpp:143-145 *)
    | JRef => (* task.cpp:150-151; an int *)
      _ ← assert_ (bool_decide (0 < a_ref s));
      let r := a_ref s - 1 in
      let s := ACtx (a_cur s) (a_comp s) r (a_freed s) (a_jobs s) (a_log s) in
      Ok (a_set s i (if decide (r = 0) then JDelete else JDone))
    | JDelete => (* task.cpp:153-155 *)
      let s := ACtx (a_cur s) (a_comp s) (a_ref s) true (a_jobs s) (a_log s) in
      Ok (a_emit (a_set s i JDone) Release)
    | JDone => Ok s
    end
  end.
(** A schedule is the list of threads in the order in which they step. *)
Definition a_run (s : actx) (sched : list nat) : res actx :=
  foldl (λ s i, s ← s; a_step s i) (Ok s) sched.
End async.

(** task.cpp:158-185: chunk size and number of jobs; no worker: division by
    zero. *)
Definition async_params (size workers : nat) : res (nat * nat) :=
  _ ← require_ (bool_decide (0 < workers));
  let ceil := size / workers + (if decide (size mod workers = 0) then 0 else 1) in
  Ok (max ceil 1, min workers size).
Definition async_init (jobs : nat) : actx := ACtx 0 0 jobs false (replicate jobs JFetch) [].
(** enqueue_task_default followed by the given schedule *)
Definition enqueue_task (size workers : nat) (sched : list nat) : res actx :=
  '(chunk, jobs) ← async_params size workers;
  a_run size chunk (async_init jobs) sched.

(** ** enqueue_task_wait_default *)
(** Program points of a job, task.cpp:83-92, and of the calling thread,
    task.cpp:187-219. *)
Inductive wst :=
| WFetch | WRun (b e : nat)
| WDec                   (* job: about to lock and decrement *)
| WWait                  (* caller: about to lock and test done *)
| WSleep                 (* caller: blocked in the condition variable *)
| WDone.
(** task.cpp:13-67.  Thread 0 is the caller, the others are the jobs. *)
Record wctx := WCtx { w_cur : nat; w_cnt : nat; w_flag : bool; w_freed : bool; w_thr : list wst; w_log : list event }.

Section wait.
Context (size chunk jobs : nat).
Definition w_set (s : wctx) (i : nat) (j : wst) : wctx :=
  WCtx (w_cur s) (w_cnt s) (w_flag s) (w_freed s) (<[i := j]> (w_thr s)) (w_log s).
Definition w_emit (s : wctx) (e : event) : wctx :=
  WCtx (w_cur s) (w_cnt s) (w_flag s) (w_freed s) (w_thr s) (w_log s ++ [e]).
(** The caller returns; ~parallel_for_context asserts count == 0 (task.cpp:36-38). *)
Definition w_return (s : wctx) : res wctx :=
  _ ← assert_ (bool_decide (w_cnt s = 0));
  let s := WCtx (w_cur s) (w_cnt s) (w_flag s) true (w_thr s) (w_log s) in
  Ok (w_emit (w_emit (w_set s 0 WDone) Release) Returned).
Definition w_step (s : wctx) (i : nat) : res wctx :=
  match w_thr s !! i with
  | None | Some WDone | Some WSleep => Ok s
  | Some j =>
    _ ← require_ (negb (w_freed s));
    match j with
    | WFetch => (* task.cpp:70-81, then 89-91 or 208-214 *)
      let b := w_cur s in
      let s := WCtx (b + chunk) (w_cnt s) (w_flag s) (w_freed s) (w_thr s) (w_log s) in
      if decide (size ≤ b) then
        if decide (i = 0) then (if decide (jobs = 0) then w_return s else Ok (w_set s 0 WWait))
        else Ok (w_set s i WDec)
      else let e := min (b + chunk) size in Ok (w_emit (w_set s i (WRun b e)) (Start b e))
    | WRun b e => Ok (w_emit (w_set s i WFetch) (Finish b e))
    | WDec => (* task.cpp:40-61, one critical section; notifies a sleeping caller *)
      _ ← assert_ (bool_decide (0 < w_cnt s));
      let c := w_cnt s - 1 in
      let d := bool_decide (c = 0) in
      let s := w_set (WCtx (w_cur s) c d (w_freed s) (w_thr s) (w_log s)) i WDone in
      match w_thr s !! 0 with
      | Some WSleep => Ok (if d then w_set s 0 WWait else s)
      | _ => Ok s
      end
    | WWait => (* task.cpp:63-66 *)
      if w_flag s then w_return s else Ok (w_set s 0 WSleep)
    | WSleep | WDone => Ok s
    end
  end.
Definition w_run (s : wctx) (sched : list nat) : res wctx :=
  foldl (λ s i, s ← s; w_step s i) (Ok s) sched.
End wait.

(** task.cpp:187-192, with the wrap-around of [size - 1u] for an empty range;
    [size] and [workers] below 2^32. *)
Definition wait_params (size workers : nat) : nat * nat :=
  (max (size / (workers + 1)) 1, if decide (size = 0) then workers else min workers (size - 1)).
Definition wait_init (jobs : nat) : wctx := WCtx 0 jobs false false (replicate (S jobs) WFetch) [].
Definition enqueue_task_wait (size workers : nat) (sched : list nat) : res wctx :=
  let '(chunk, jobs) := wait_params size workers in
  w_run size chunk jobs (wait_init jobs) sched.
