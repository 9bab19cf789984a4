(** Model of src/edyn/networking/util/clock_sync.cpp. *)
From Verif Require Import Outcome.
From Verif Require Export ClockTypes.
Local Open Scope nat_scope.

(** clock_sync_state, clock_sync.hpp:12-17 *)
Inductive cs_phase := CsNone | CsReq0 | CsReq1 | CsWait.
(** clock_sync_data, clock_sync.hpp:19-60. Members without an initialiser are
    [None] until they are assigned; reading one of those is UB. The counters are
    unbounded (unsigned in the code). [cs_log] is what was sent and taken into
    account so far, it is not part of the code. *)
Record cs D := Cs {
  cs_phase_ : cs_phase; cs_req_time : option D; cs_req_id : option nat; cs_rtt0 : option D; cs_remote0 : option D;
  cs_delay : D; cs_delta : D; cs_num : nat; cs_samples : list (option D); cs_count : nat; cs_period : D;
  cs_trace : list (cs_log D) }.
Arguments Cs {_}. Arguments cs_phase_ {_}. Arguments cs_req_time {_}. Arguments cs_req_id {_}.
Arguments cs_rtt0 {_}. Arguments cs_remote0 {_}. Arguments cs_delay {_}. Arguments cs_delta {_}.
Arguments cs_num {_}. Arguments cs_samples {_}. Arguments cs_count {_}. Arguments cs_period {_}. Arguments cs_trace {_}.
Definition max_samples : nat := 5.

Section model.
Context {D : Type} (o : num D).
Notation cs := (cs D).

Definition cs_init (delay period : D) : cs :=
  Cs CsNone None None None None delay (n_nat o 0) 0 (replicate max_samples None) 0 period [].

(** start_clock_sync, clock_sync.cpp:5-12 *)
Definition cs_start (c : cs) (time : D) (r : nat) : cs :=
  Cs CsReq0 (Some time) (Some r) (cs_rtt0 c) (cs_remote0 c) (cs_delay c) (cs_delta c) (cs_num c) (cs_samples c)
     (cs_count c) (cs_period c) (cs_trace c ++ [Sent r time]).
(** The first reply, 24-34 *)
Definition cs_first (c : cs) (id : nat) (ts time : D) (r : nat) : res cs :=
  t ← opt_res (cs_req_time c);
  Ok (Cs CsReq1 (Some time) (Some r) (Some (n_sub o time t)) (Some ts) (cs_delay c) (cs_delta c) (cs_num c) (cs_samples c)
     (cs_count c) (cs_period c) (cs_trace c ++ [Recv id ts time; Sent r time])).
(** Indexing time_delta_samples; outside is UB. *)
Fixpoint cs_sum (acc : D) (l : list (option D)) : res D :=
  match l with [] => Ok acc | x :: l => v ← opt_res x; cs_sum (n_add o acc v) l end.
(** The second reply, 35-76 *)
Definition cs_second (c : cs) (id : nat) (ts time : D) (r : nat) : res cs :=
  rtt0 ← opt_res (cs_rtt0 c); t ← opt_res (cs_req_time c); ts0 ← opt_res (cs_remote0 c);
  let rtt1 := n_sub o time t in
  let rtt := n_div o (n_add o rtt0 rtt1) (n_nat o 2) in
  let dt := n_sub o ts ts0 in
  let c := Cs (cs_phase_ c) (cs_req_time c) (cs_req_id c) (cs_rtt0 c) (cs_remote0 c) (cs_delay c) (cs_delta c) (cs_num c)
     (cs_samples c) (cs_count c) (cs_period c) (cs_trace c ++ [Recv id ts time]) in
  if n_gt o (n_abs o (n_sub o rtt0 rtt1)) (n_mul o rtt0 (n_tenth o)) ||
     n_gt o (n_abs o (n_sub o rtt dt)) (n_mul o rtt (n_tenth o))
  then Ok (cs_start c time r)
  else
  let d := n_sub o time (n_add o ts (n_div o rtt1 (n_nat o 2))) in
  _ ← require_ (cs_num c <? max_samples);
  let samples := <[cs_num c := Some d]> (cs_samples c) in
  let num := S (cs_num c) in
  let tr := cs_trace c ++ [Sample d] in
  if num =? max_samples then
    sum ← cs_sum (n_nat o 0) samples;
    Ok (Cs CsNone (Some time) (cs_req_id c) (cs_rtt0 c) (cs_remote0 c) (cs_delay c)
          (n_div o sum (n_nat o max_samples)) 0 samples (S (cs_count c)) (cs_period c) tr)
  else if cs_count c =? 0 then
    sum ← cs_sum (n_nat o 0) (take num samples);
    Ok (Cs CsWait (Some time) (cs_req_id c) (cs_rtt0 c) (cs_remote0 c) (cs_delay c)
          (n_div o sum (n_nat o num)) num samples (cs_count c) (cs_period c) tr)
  else
    Ok (Cs CsWait (Some time) (cs_req_id c) (cs_rtt0 c) (cs_remote0 c) (cs_delay c)
          (cs_delta c) num samples (cs_count c) (cs_period c) tr).
(** clock_sync_process_time_response, 14-77 *)
Definition cs_response (c : cs) (id : nat) (ts time : D) (r : nat) : res cs :=
  match cs_phase_ c with
  | CsNone | CsWait => Ok c
  | p => rid ← opt_res (cs_req_id c);
         if negb (id =? rid) then Ok c else
         match p with CsReq0 => cs_first c id ts time r | _ => cs_second c id ts time r end
  end.
(** update_clock_sync, 79-102 *)
Definition cs_update (c : cs) (time avg_rtt : D) (r : nat) : res cs :=
  match cs_phase_ c with
  | CsNone =>
    if cs_count c =? 0 then Ok (cs_start c time r) else
    t ← opt_res (cs_req_time c);
    if n_gt o (n_sub o time t) (cs_period c) then Ok (cs_start c time r) else Ok c
  | CsReq0 | CsReq1 =>
    t ← opt_res (cs_req_time c);
    if n_gt o (n_sub o time t) (n_mul o avg_rtt (n_loss o)) then Ok (cs_start c time r) else Ok c
  | CsWait =>
    t ← opt_res (cs_req_time c);
    if n_gt o (n_sub o time t) (cs_delay c) then Ok (cs_start c time r) else Ok c
  end.
Definition cs_step (c : cs) (e : cs_event D) : res cs :=
  match e with
  | CsUpdate time rtt r => cs_update c time rtt r
  | CsResponse id ts time r => cs_response c id ts time r
  end.
Fixpoint cs_run (c : cs) (l : list (cs_event D)) : res cs :=
  match l with [] => Ok c | e :: l => c' ← cs_step c e; cs_run c' l end.
End model.
