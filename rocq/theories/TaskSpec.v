(** Specification vocabulary for parallel tasks: observations of a log. *)
From Verif Require Import Outcome TaskModel.

Definition ev_start (i : nat) (v : event) : nat :=
  match v with Start b e => if decide (b ≤ i < e) then 1 else 0 | _ => 0 end.
Definition ev_finish (i : nat) (v : event) : nat :=
  match v with Finish b e => if decide (b ≤ i < e) then 1 else 0 | _ => 0 end.
Definition ev_complete (v : event) : nat := match v with Complete => 1 | _ => 0 end.
Definition ev_release (v : event) : nat := match v with Release => 1 | _ => 0 end.
Definition ev_return (v : event) : nat := match v with Returned => 1 | _ => 0 end.
(** How often the task was called for, and returned from, index [i]. *)
Definition started (i : nat) (l : list event) : nat := sum_list_with (ev_start i) l.
Definition finished (i : nat) (l : list event) : nat := sum_list_with (ev_finish i) l.
Definition completions (l : list event) : nat := sum_list_with ev_complete l.
Definition releases (l : list event) : nat := sum_list_with ev_release l.
Definition returns (l : list event) : nat := sum_list_with ev_return l.
(** Every range is non-empty, in bounds and at most [chunk] long. *)
Definition ranges_ok (size chunk : nat) (l : list event) : Prop :=
  ∀ b e, Start b e ∈ l → b < e ∧ e ≤ size ∧ e - b ≤ chunk.
(** Whenever [v] is in the log, every index below [size] had finished before. *)
Definition after_all_work (size : nat) (v : event) (l : list event) : Prop :=
  ∀ l1 l2, l = l1 ++ v :: l2 → ∀ i, i < size → finished i l1 = 1.
(** All threads have finished. *)
Definition all_done_a (s : actx) : Prop := ∀ j, j ∈ a_jobs s → j = JDone.
Definition all_done_w (s : wctx) : Prop := ∀ j, j ∈ w_thr s → j = WDone.
(** Thread [i] can act: it has neither finished nor is it blocked. *)
Definition can_act_a (s : actx) (i : nat) : Prop := ∃ j, a_jobs s !! i = Some j ∧ j ≠ JDone.
Definition can_act_w (s : wctx) (i : nat) : Prop := ∃ j, w_thr s !! i = Some j ∧ j ≠ WDone ∧ j ≠ WSleep.
(** A schedule that only names threads that can act. *)
Inductive acts {St} (step : St → nat → res St) (can : St → nat → Prop) : St → list nat → St → Prop :=
| acts_nil s : acts step can s [] s
| acts_cons s i s' l t : can s i → step s i = Ok s' → acts step can s' l t → acts step can s (i :: l) t.
