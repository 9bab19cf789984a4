(** Model of how time is turned into fixed steps, in exact rationals:
    - stepper_sequential::update, step_simulation, set_paused and
      get_simulation_timestamp (src/edyn/simulation/stepper_sequential.cpp:16-163,
      include/edyn/simulation/stepper_sequential.hpp:27-29),
    - simulation_worker::init, update, run (the part that sets the time),
      on_set_paused, on_step_simulation, on_set_settings
      (src/edyn/simulation/simulation_worker.cpp:145-147, 348-485, 515-569),
    - the interpolation time of update_presentation
      (src/edyn/sys/update_presentation.cpp:68).
    What a step does to the registry is one event.  Doubles are rationals, the
    integer conversions are unbounded, callbacks do not call back. *)
From Coq Require Import QArith Qminmax Qround.
From Verif Require Export Outcome.
Local Open Scope Q_scope.

(** settings.fixed_dt and settings.max_steps_per_update (an unsigned). *)
Record cfg := Cfg { c_dt : Q; c_cap : nat }.

(** What an update makes happen: a step (with the time the island manager is
    given; the solver always uses fixed_dt, solver.cpp:390), an update of the
    islands alone, the presentation moved by an interpolation time, the
    presentation snapped. *)
Inductive ev := Step (t : Q) | Idle (t : Q) | Present (dt : Q) | Snap.

Definition Qlt_bool (a b : Q) : bool := negb (Qle_bool b a).
Definition Qnat (n : nat) : Q := inject_Z (Z.of_nat n).
(** update_presentation.cpp:68 *)
Definition interpolation_dt (c : cfg) (sim now delay : Q) : Q := Qmin (now - delay - sim) (c_dt c).

(** effective_steps and step_dt: stepper_sequential.cpp:50-61 and
    simulation_worker.cpp:384-398.  A zero cap divides by zero, giving a step_dt
    that no step uses. *)
Definition effective (c : cfg) (n : Z) : nat :=
  if Z.ltb (Z.of_nat (c_cap c)) n then c_cap c else Z.to_nat n.
Definition step_dt (c : cfg) (n : Z) : Q :=
  if Z.ltb (Z.of_nat (c_cap c)) n then inject_Z n * c_dt c / Qnat (c_cap c) else c_dt c.

(** ** Sequential *)
Record stepper := Stepper { sq_last : Q; sq_acc : Q; sq_paused : bool }.
(** stepper_sequential.cpp:16-26 *)
Definition sq_new (time : Q) : stepper := Stepper time 0 false.
(** get_simulation_timestamp, stepper_sequential.hpp:27-29 *)
Definition sq_timestamp (s : stepper) : Q := sq_last s - sq_acc s.
(** stepper_sequential.cpp:28-126.  A negative number does not fit uint64_t and
    a fixed_dt of zero gives no number: UB. *)
Definition sq_update (c : cfg) (s : stepper) (time : Q) : res (stepper * list ev) :=
  if sq_paused s then Ok (s, [Idle (sq_last s); Snap]) else
  let sim_time := sq_timestamp s in
  let elapsed := Qmax (time - sq_last s) 0 in
  let acc := sq_acc s + elapsed in
  _ ← require_ (negb (Qeq_bool (c_dt c) 0));
  let n := Qfloor (acc / c_dt c) in
  _ ← require_ (Z.leb 0 n);
  let acc := acc - inject_Z n * c_dt c in
  let steps := (λ i, Step (sim_time + step_dt c n * Qnat i)) <$> seq 0 (effective c n) in
  let s' := Stepper time acc false in
  Ok (s', steps ++ [Present (interpolation_dt c (sq_timestamp s') time (c_dt c))]).
(** stepper_sequential.cpp:128-157 *)
Definition sq_step (s : stepper) (time : Q) : res (stepper * list ev) :=
  _ ← assert_ (sq_paused s);
  Ok (Stepper time (sq_acc s) (sq_paused s), [Step time]).
(** stepper_sequential.cpp:159-162 *)
Definition sq_set_paused (s : stepper) (b : bool) : stepper := Stepper (sq_last s) 0 b.

(** What an application calls: edyn::update(registry, time),
    edyn::step_simulation(registry, time), edyn::set_paused (edyn.cpp:223-273). *)
Inductive sq_op := Update (t : Q) | StepOnce (t : Q) | Pause (b : bool).
Definition sq_do (c : cfg) (s : stepper) (o : sq_op) : res (stepper * list ev) :=
  match o with
  | Update t => sq_update c s t
  | StepOnce t => sq_step s t
  | Pause b => Ok (sq_set_paused s b, [])
  end.
Fixpoint sq_run (c : cfg) (s : stepper) (os : list sq_op) : res (stepper * list ev) :=
  match os with
  | [] => Ok (s, [])
  | o :: os => '(s, e1) ← sq_do c s o; '(s, e2) ← sq_run c s os; Ok (s, e1 ++ e2)
  end.

(** ** Worker thread *)
Record worker := Worker {
  wk_last : Q; wk_current : Q; wk_acc : Q; wk_sim : Q; wk_paused : bool }.
(** run and init: simulation_worker.cpp:474-475 and 145-147 *)
Definition wk_new (time : Q) : worker := Worker time time 0 time false.
(** Messages handled by m_message_queue.update() at the start of update;
    a new time source gives the time [t]. *)
Inductive wmsg := MPause (b : bool) | MStep | MTimeSource (t : Q).
Definition wk_msg (w : worker) (m : wmsg) : worker * list ev :=
  match m with
  | MPause b =>       (* simulation_worker.cpp:515-524 *)
    if b then (Worker (wk_last w) (wk_current w) 0 (wk_sim w) true, [])
    else (Worker (wk_current w) (wk_current w) 0 (wk_current w) false, [])
  | MStep =>          (* simulation_worker.cpp:526-552 *)
    (Worker (wk_current w) (wk_current w) (wk_acc w) (wk_current w) (wk_paused w), [Step (wk_current w)])
  | MTimeSource t =>  (* simulation_worker.cpp:564-569 *)
    (Worker t t (wk_acc w) t (wk_paused w), [])
  end.
Fixpoint wk_msgs (w : worker) (ms : list wmsg) : worker * list ev :=
  match ms with
  | [] => (w, [])
  | m :: ms => let '(w, e1) := wk_msg w m in let '(w, e2) := wk_msgs w ms in (w, e1 ++ e2)
  end.
(** The loop of simulation_worker.cpp:405-443: m_sim_time grows by step_dt. *)
Fixpoint wk_steps (sim d : Q) (k : nat) : list ev :=
  match k with O => [] | S k => Step sim :: wk_steps (sim + d) d k end.
(** simulation_worker.cpp:371-465, after the messages.  int64_t holds negative
    numbers; the loop then runs zero times. *)
Definition wk_advance (c : cfg) (w : worker) : res (worker * list ev) :=
  if wk_paused w then Ok (w, [Idle (wk_last w)]) else
  let acc := wk_acc w + (wk_current w - wk_last w) in
  _ ← require_ (negb (Qeq_bool (c_dt c) 0));
  let n := Qfloor (acc / c_dt c) in
  let acc := acc - inject_Z n * c_dt c in
  Ok (Worker (wk_current w) (wk_current w) acc (wk_current w - acc) false,
      wk_steps (wk_sim w) (step_dt c n) (effective c n)).
(** One turn of the loop of run: simulation_worker.cpp:477-482. *)
Definition wk_turn (c : cfg) (w : worker) (time : Q) (ms : list wmsg) : res (worker * list ev) :=
  let w := Worker (wk_last w) time (wk_acc w) (wk_sim w) (wk_paused w) in
  let '(w, e1) := wk_msgs w ms in
  '(w, e2) ← wk_advance c w; Ok (w, e1 ++ e2).
Fixpoint wk_run (c : cfg) (w : worker) (ts : list (Q * list wmsg)) : res (worker * list ev) :=
  match ts with
  | [] => Ok (w, [])
  | (t, ms) :: ts => '(w, e1) ← wk_turn c w t ms; '(w, e2) ← wk_run c w ts; Ok (w, e1 ++ e2)
  end.
