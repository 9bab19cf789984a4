(** Presentation: the delay of the asynchronous stepper
    (src/edyn/simulation/stepper_async.cpp:120-132, 240-311) and the presented
    transforms (src/edyn/sys/update_presentation.cpp,
    include/edyn/networking/sys/accumulate_discontinuities.hpp).

    Simplification: scalars and times are real numbers. *)
From Verif Require Import Outcome BoxModel GeoModel.
From Coq Require Import Reals.
Local Open Scope R_scope.

(** * The delay *)

(** stepper_async.hpp:117-123 *)
Record pst := PSt {
  p_last : R; p_sim : R; p_delay : R; p_samples : list R;
  p_due : bool; p_adjusting : bool; p_paused : bool }.
(** stepper_async.cpp:37-38 and the initializers of the members: 48 samples *)
Definition samples0 : list R := replicate 48 0.
Definition pst0 (time : R) : pst := PSt time time 0 samples0 false true false.

(** std::ceil *)
Definition rceil (x : R) : R := - IZR (Int_part (- x)).
(** std::accumulate from zero *)
Definition sum (l : list R) : R := foldl Rplus 0 l.
(** stepper_async.cpp:245-247: std::rotate by one, then the last is replaced *)
Definition push_sample (l : list R) (x : R) : list R :=
  match l with [] => [] | _ :: l' => l' ++ [x] end.
(** stepper_async.cpp:249-257.  The number of samples is not zero. *)
Definition average (l : list R) : R := sum l / INR (length l).
Definition deviation (l : list R) : R := average (map (λ x, Rabs (x - average l)) l).
(** stepper_async.cpp:258-259 *)
Definition target_delay (l : list R) (fixed_dt : R) : R :=
  rceil ((average l + deviation l) / fixed_dt) * fixed_dt.
(** stepper_async.cpp:260-276: new delay, and whether it is still adjusted *)
Definition adjust (target delay : R) (adjusting : bool) (elapsed fixed_dt : R) : R * bool :=
  let err := target - delay in
  let adjusting := adjusting || rltb fixed_dt (Rabs err) in
  if adjusting then
    let rate := if rltb 0 err then 5 else 2 in
    let delay := delay + err * Rmin (rate * elapsed) 1 in
    if rltb (Rabs (target - delay)) (1 / 100000) then (target, false) else (delay, true)
  else (delay, false).
(** stepper_async.cpp:240-277 *)
Definition calculate_presentation_delay (s : pst) (now elapsed fixed_dt : R) : pst :=
  let samples := push_sample (p_samples s) (Rmin (now - p_sim s) 1) in
  let r := adjust (target_delay samples fixed_dt) (p_delay s) (p_adjusting s) elapsed fixed_dt in
  PSt (p_last s) (p_sim s) r.1 samples (p_due s) r.2 (p_paused s).
(** update_presentation.cpp:69 *)
Definition interpolation_dt (sim now delay fixed_dt : R) : R := Rmin (now - delay - sim) fixed_dt.

(** What happens to the stepper: a message of the worker with the time of its
    simulation (stepper_async.cpp:120-132; the messages are handled inside
    [update], so they come right before it), an update, and a change of the
    pause (stepper_async.cpp:304-311). *)
Inductive pop := Stepped (t : R) | Update (now : R) | SetPaused (b : bool).
(** The second component: of an update, the time from the simulation's state to
    the presented one, or None if the presentation snaps to the state
    (stepper_async.cpp:279-302). *)
Definition papply (fixed_dt : R) (s : pst) (o : pop) : pst * option (option R) :=
  match o with
  | Stepped t => (PSt (p_last s) t (p_delay s) (p_samples s) true (p_adjusting s) (p_paused s), None)
  | Update now =>
    let elapsed := Rmin (now - p_last s) 1 in
    let s1 := if p_paused s then s
              else if p_due s then calculate_presentation_delay s now elapsed fixed_dt else s in
    let shown := if p_paused s then None
                 else Some (interpolation_dt (p_sim s1) now (p_delay s1) fixed_dt) in
    (PSt now (p_sim s1) (p_delay s1) (p_samples s1) false (p_adjusting s1) (p_paused s1), Some shown)
  | SetPaused b => (PSt (p_last s) (p_sim s) 0 samples0 (p_due s) true b, None)
  end.
Definition prun (fixed_dt : R) (s : pst) (os : list pop) : pst :=
  foldl (λ s o, (papply fixed_dt s o).1) s os.

(** * Presented transforms *)

(** discontinuity.hpp:15-18 *)
Notation offset := (v3 * quat)%type.
Definition no_offset : offset := (vec0, qid).
(** The components of a rigid body that the presentation reads and writes.  All
    loops of update_presentation.cpp treat every entity by itself, so one body
    is enough. *)
Record body := Body {
  b_pos : v3; b_orn : quat; b_linvel : v3; b_angvel : v3;
  b_ppos : v3; b_porn : quat;
  b_procedural : bool; b_sleeping : bool; b_disabled : bool;
  b_dis : option offset; b_acc : option offset }.

Definition with_dis (b : body) (d a : option offset) : body :=
  Body (b_pos b) (b_orn b) (b_linvel b) (b_angvel b) (b_ppos b) (b_porn b)
       (b_procedural b) (b_sleeping b) (b_disabled b) d a.
Definition with_present (b : body) (p : v3) (q : quat) : body :=
  Body (b_pos b) (b_orn b) (b_linvel b) (b_angvel b) p q
       (b_procedural b) (b_sleeping b) (b_disabled b) (b_dis b) (b_acc b).

(** update_presentation.cpp:24-30 *)
Definition transfer (b : body) : res body :=
  match b_dis b, b_acc b with
  | Some d, Some a =>
    q ← qnormalize (qmul d.2 a.2);
    Ok (with_dis b (Some ((d.1 + a.1)%V, q)) (Some no_offset))
  | _, _ => Ok b
  end.
(** update_presentation.cpp:36-48 *)
Definition decay_pos (rate dt : R) (p : v3) : v3 :=
  if rltb (1 / 10000) (lsq p) then (p - Rmin (rate * dt) 1 * p)%V else vec0.
Definition decay_orn (rate dt : R) (q : quat) : res quat :=
  if rltb (Rabs (qw q)) (9999 / 10000) then slerp q qid (Rmin (rate * dt) 1) else Ok qid.
Definition decay (rate dt : R) (b : body) : res body :=
  match b_dis b with
  | None => Ok b
  | Some d => q ← decay_orn rate dt d.2; Ok (with_dis b (Some (decay_pos rate dt d.1, q)) (b_acc b))
  end.
(** update_presentation.cpp:50-54 *)
Definition calm (b : body) : body :=
  match b_dis b with
  | Some _ => if b_sleeping b then with_dis b (Some no_offset) (b_acc b) else b
  | None => b
  end.
(** update_presentation.cpp:19-55 *)
Definition update_discontinuities (rate dt : R) (b : body) : res body :=
  b ← transfer b;
  b ← decay rate dt b;
  Ok (calm b).
(** update_presentation.cpp:71-77: bodies that are procedural, awake and enabled *)
Definition extrapolate (idt : R) (b : body) : res body :=
  if b_procedural b && negb (b_sleeping b) && negb (b_disabled b) then
    q ← integrate (b_orn b) (b_angvel b) idt;
    Ok (with_present b (b_pos b + idt * b_linvel b)%V q)
  else Ok b.
(** update_presentation.cpp:79-83 *)
Definition show_offset (b : body) : body :=
  match b_dis b with
  | Some d => with_present b (b_ppos b + d.1)%V (qmul d.2 (b_porn b))
  | None => b
  end.
(** update_presentation.cpp:56-84: [client] is the rate of decay of a networked
    client, None without one *)
Definition update_presentation (client : option R) (dt idt : R) (b : body) : res body :=
  b ← match client with Some rate => update_discontinuities rate dt b | None => Ok b end;
  b ← extrapolate idt b;
  Ok (show_offset b).
(** update_presentation.cpp:86-92 *)
Definition snap_presentation (b : body) : body := with_present b (b_pos b) (b_orn b).
(** accumulate_discontinuities.hpp:12-21 for a body whose transform was just
    replaced: [p], [q] is the new transform, the old one is the previous one *)
Definition jump (p : v3) (q : quat) (b : body) : body :=
  Body p q (b_linvel b) (b_angvel b) (b_ppos b) (b_porn b)
       (b_procedural b) (b_sleeping b) (b_disabled b) (b_dis b)
       (match b_acc b with
        | Some a => if negb (b_sleeping b) && negb (b_disabled b)
                    then Some ((a.1 + (b_pos b - p))%V, qmul a.2 (qmul (b_orn b) (qconj q)))
                    else Some a
        | None => None
        end).
