(** Model of the job queue, the worker and the choice of a worker by the job
    dispatcher (src/edyn/parallel/job_queue.cpp, include/edyn/parallel/worker.hpp,
    src/edyn/parallel/job_dispatcher.cpp).  Interleaving semantics: one step is
    one critical section or one atomic access.  A job is a number. *)
From Verif Require Import Outcome.

(** ** job_queue with any number of threads *)
Inductive qop := QPush (j : nat) | QPop | QTry | QSize.
Inductive qev :=
| EPush (t j : nat)      (* a job entered the queue *)
| EPop (t j : nat)       (* pop or try_pop returned this job *)
| EMiss (t : nat)        (* try_pop returned false *)
| ESize (t n : nat).     (* size returned n *)
(** A thread: its remaining operations and where it is in the current one. *)
Inductive qpc :=
| QNext (r : list qop)                (* between operations *)
| QNotify (r : list qop)              (* push: lock released, about to notify *)
| QSleep (k : bool) (r : list qop).   (* pop: in the condition variable; [k]: woken *)
Record qst := QSt { q_jobs : list nat; q_thr : list qpc; q_log : list qev }.

Definition q_set (s : qst) (t : nat) (p : qpc) : qst := QSt (q_jobs s) (<[t := p]> (q_thr s)) (q_log s).
Definition asleep (p : qpc) : bool := match p with QSleep false _ => true | _ => false end.
Definition wake (p : qpc) : qpc := match p with QSleep _ r => QSleep true r | p => p end.
(** Threads blocked in the condition variable. *)
Definition sleepers (l : list qpc) : list nat :=
  filter (λ t, asleep (default (QNext []) (l !! t)) = true) (seq 0 (length l)).
(** job_queue.cpp:14-23, the part after getting the lock *)
Definition q_take (s : qst) (t : nat) (r : list qop) : qst :=
  match q_jobs s with
  | [] => q_set s t (QSleep false r)
  | j :: js => QSt js (<[t := QNext r]> (q_thr s)) (q_log s ++ [EPop t j])
  end.
(** A step: thread [t] continues ([c] resolves which waiting thread a notify_one
    wakes), or thread [t] wakes up spuriously. *)
Inductive qlabel := Go (t c : nat) | Spurious (t : nat).
Definition q_step (s : qst) (l : qlabel) : qst :=
  match l with
  | Go t c =>
    match q_thr s !! t with
    | Some (QNext (QPush j :: r)) => (* job_queue.cpp:6-10 *)
      QSt (q_jobs s ++ [j]) (<[t := QNotify r]> (q_thr s)) (q_log s ++ [EPush t j])
    | Some (QNotify r) => (* job_queue.cpp:11 *)
      let s := q_set s t (QNext r) in
      let w := sleepers (q_thr s) in
      match w !! (c mod length w) with
      | Some u => QSt (q_jobs s) (alter wake u (q_thr s)) (q_log s)
      | None => s
      end
    | Some (QNext (QPop :: r)) => q_take s t r (* job_queue.cpp:14-23 *)
    | Some (QSleep true r) => q_take s t r
    | Some (QNext (QTry :: r)) => (* job_queue.cpp:25-34 *)
      match q_jobs s with
      | [] => QSt [] (<[t := QNext r]> (q_thr s)) (q_log s ++ [EMiss t])
      | j :: js => QSt js (<[t := QNext r]> (q_thr s)) (q_log s ++ [EPop t j])
      end
    | Some (QNext (QSize :: r)) => (* job_queue.cpp:36-39 *)
      QSt (q_jobs s) (<[t := QNext r]> (q_thr s)) (q_log s ++ [ESize t (length (q_jobs s))])
    | _ => s
    end
  | Spurious t => QSt (q_jobs s) (alter wake t (q_thr s)) (q_log s)
  end.
(** Thread [t] runs the operations [progs !! t]. *)
Definition q_init (progs : list (list qop)) : qst := QSt [] (QNext <$> progs) [].
Definition q_run (s : qst) (l : list qlabel) : qst := foldl q_step s l.

(** ** worker *)
(** What a client does with a worker: push_job or stop. *)
Inductive wop := WPush (j : nat) | WStop.
(** Client program point. *)
Inductive cpc :=
| CNext (r : list wop)
| CNotify (inc : bool) (r : list wop)   (* in queue.push after the lock; [inc]: ++m_size follows *)
| CInc (r : list wop)                   (* about to ++m_size *)
| CPushNoop (r : list wop).             (* in stop, m_running already false *)
(** The worker thread, worker.hpp:21-33.  A queued no-op is [None]. *)
Inductive rpc :=
| RStart | RPop | RSleep (k : bool) | RRun (j : option nat) | RDec | RTest | RDone.
Inductive wev := Ran (j : nat) | Pushed (j : nat) | Stopped.
Record wkst := WkSt { k_running : bool; k_size : Z; k_queue : list (option nat); k_thr : rpc; k_cl : list cpc; k_log : list wev }.

Definition k_cset (s : wkst) (i : nat) (p : cpc) : wkst :=
  WkSt (k_running s) (k_size s) (k_queue s) (k_thr s) (<[i := p]> (k_cl s)) (k_log s).
Definition k_rset (s : wkst) (p : rpc) : wkst :=
  WkSt (k_running s) (k_size s) (k_queue s) p (k_cl s) (k_log s).
(** Step 0 is the worker thread, step [S i] is client [i].  [m_size] is kept as
    an integer; what size() returns is this value modulo 2^64. *)
Definition k_step (s : wkst) (i : nat) : wkst :=
  match i with
  | 0 =>
    match k_thr s with
    | RStart => WkSt true (k_size s) (k_queue s) RPop (k_cl s) (k_log s) (* worker.hpp:22 *)
    | RPop | RSleep true => (* worker.hpp:25 *)
      match k_queue s with
      | [] => k_rset s (RSleep false)
      | j :: q => WkSt (k_running s) (k_size s) q (RRun j) (k_cl s) (k_log s)
      end
    | RRun j => (* worker.hpp:26 *)
      WkSt (k_running s) (k_size s) (k_queue s) RDec (k_cl s) (k_log s ++ match j with Some j => [Ran j] | None => [] end)
    | RDec => WkSt (k_running s) (k_size s - 1) (k_queue s) RTest (k_cl s) (k_log s) (* worker.hpp:27 *)
    | RTest => k_rset s (if k_running s then RPop else RDone) (* worker.hpp:29-31 *)
    | RSleep false | RDone => s
    end
  | S i =>
    match k_cl s !! i with
    | Some (CNext (WPush j :: r)) => (* worker.hpp:16 *)
      WkSt (k_running s) (k_size s) (k_queue s ++ [Some j]) (k_thr s) (<[i := CNotify true r]> (k_cl s)) (k_log s ++ [Pushed j])
    | Some (CNotify inc r) => (* job_queue.cpp:11 *)
      let s := k_cset s i (if inc then CInc r else CNext r) in
      match k_thr s with RSleep _ => k_rset s (RSleep true) | _ => s end
    | Some (CInc r) => (* worker.hpp:17 *)
      k_cset (WkSt (k_running s) (k_size s + 1) (k_queue s) (k_thr s) (k_cl s) (k_log s)) i (CNext r)
    | Some (CNext (WStop :: r)) => (* worker.hpp:44 *)
      WkSt false (k_size s) (k_queue s) (k_thr s) (<[i := CPushNoop r]> (k_cl s)) (k_log s ++ [Stopped])
    | Some (CPushNoop r) => (* worker.hpp:45 *)
      WkSt (k_running s) (k_size s) (k_queue s ++ [None]) (k_thr s) (<[i := CNotify false r]> (k_cl s)) (k_log s)
    | _ => s
    end
  end.
(** A new worker whose thread was just created (job_dispatcher.cpp:22-30). *)
Definition k_init (progs : list (list wop)) : wkst := WkSt false 0 [] RStart (CNext <$> progs) [].
(** A schedule: [Some i] is a step of thread [i], [None] a spurious wake-up of
    the worker. *)
Definition k_label (s : wkst) (l : option nat) : wkst :=
  match l with
  | Some i => k_step s i
  | None => match k_thr s with RSleep _ => k_rset s (RSleep true) | _ => s end
  end.
Definition k_run (s : wkst) (l : list (option nat)) : wkst := foldl k_label s l.

(** ** job_dispatcher::async, job_dispatcher.cpp:51-88
    [sizes] are the values of size() read from the workers in map order,
    [start] the value of the rotating counter; the result is the worker the job
    is pushed to.  [maxs] is SIZE_MAX. *)
Fixpoint choose (ks : list nat) (sizes : list Z) (best : option nat) (least : Z) : res nat :=
  match ks with
  | [] => match best with Some k => Ok k | None => AssertFail end
  | k :: ks =>
    s ← opt_res (sizes !! k);
    if decide (s = 0%Z) then Ok k
    else if decide (s < least)%Z then choose ks sizes (Some k) s
    else choose ks sizes best least
  end.
Definition async (maxs : Z) (start : nat) (sizes : list Z) : res nat :=
  let n := length sizes in
  _ ← assert_ (bool_decide (0 < n));
  if decide (n = 1) then Ok 0
  else choose ((λ i, i mod n) <$> seq (start mod n) n) sizes None maxs.
