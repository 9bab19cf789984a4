(** Presentation: the delay over all executions, and the presented transforms. *)
From Verif Require Import Outcome BoxModel GeoModel RotSpec PresModel.
From Coq Require Import Reals.
Local Open Scope R_scope.

(** The clock of the user does not run backwards, and the simulation's time does
    not either and is not ahead of it when an update comes. *)
Fixpoint sane (last sim : R) (os : list pop) : Prop :=
  match os with
  | [] => True
  | Stepped t :: os => sim <= t ∧ sane last t os
  | Update now :: os => last <= now ∧ sim <= now ∧ sane now sim os
  | SetPaused _ :: os => sane last sim os
  end.
(** [x] is between [a] and [b], in any order *)
Definition amid (a x b : R) : Prop := a <= x <= b ∨ b <= x <= a.
(** A multiple of a step *)
Definition multiple (x step : R) : Prop := ∃ k : Z, x = IZR k * step.
Definition mean (l : list R) : R := fold_right Rplus 0 l / INR (length l).
(** Mean distance from the mean *)
Definition spread (l : list R) : R := mean (map (λ x, Rabs (x - mean l)) l).
(** How far the simulation was behind (at most a second) at the updates that
    had news of it since the last change of the pause, oldest first *)
Fixpoint observed (sim : R) (due paused : bool) (seen : list R) (os : list pop) : list R :=
  match os with
  | [] => seen
  | Stepped t :: os => observed t true paused seen os
  | Update now :: os =>
    observed sim false paused (if paused || negb due then seen else seen ++ [Rmin (now - sim) 1]) os
  | SetPaused b :: os => observed sim due b [] os
  end.
(** The instant whose state an update presents *)
Definition instant (s : pst) (idt : R) : R := p_sim s + idt.
(** The presented position is this far from the position *)
Definition shown_gap (b : body) : v3 := (b_ppos b - b_pos b)%V.
(** What is presented of a body at rest before its offsets fade *)
Definition unfaded (b : body) : option (v3 * quat) :=
  match b_dis b, b_acc b with
  | Some d, Some a => Some ((b_pos b + (d.1 + a.1))%V, qmul (qmul d.2 a.2) (b_orn b))
  | _, _ => None
  end.
(** The offset shown of a body *)
Definition remaining (b : body) : v3 * quat := default (vec0, qid) (b_dis b).
(** An orientation offset fades by the fraction [k] of its angle along the
    shortest way back, and is dropped if its angle is small. *)
Definition fades (k : R) (q r : quat) : Prop :=
  (9999 / 10000 <= Rabs (qw q) ∧ r = qid) ∨
  (Rabs (qw q) < 9999 / 10000 ∧ ∃ n a, dot3 n n = 1 ∧ 0 <= a <= PI ∧
    (∀ v, turn n a (rotate q v) = v) ∧ ∀ v, rotate r v = turn n (k * a) (rotate q v)).
(** Offsets are normalized. *)
Definition unit_offset (o : option (v3 * quat)) : Prop := ∀ d, o = Some d → qlsq d.2 = 1.
(** The simulated state of a body is the same. *)
Definition same_state (b b' : body) : Prop :=
  b_pos b' = b_pos b ∧ b_orn b' = b_orn b ∧ b_linvel b' = b_linvel b ∧ b_angvel b' = b_angvel b ∧
  b_procedural b' = b_procedural b ∧ b_sleeping b' = b_sleeping b ∧ b_disabled b' = b_disabled b.
(** Updates one after the other, each with its elapsed and interpolated time *)
Fixpoint updates (rate : R) (l : list (R * R)) (b : body) : res body :=
  match l with
  | [] => Ok b
  | x :: l => b ← update_presentation (Some rate) x.1 x.2 b; updates rate l b
  end.
Definition fall_asleep (b : body) : body :=
  Body (b_pos b) (b_orn b) (b_linvel b) (b_angvel b) (b_ppos b) (b_porn b)
       (b_procedural b) true (b_disabled b) (b_dis b) (b_acc b).
