(** Specification for C42, in terms of what happened (the log) only. *)
From Verif Require Import Outcome AskModel.
Open Scope Z_scope.

(** Requests of a kind (rays / boxes), callbacks of a kind, rays left without an
    answer, as ids in order of time. *)
Definition issues (k : bool) : list event → list nat :=
  omap (λ e, match e with LIssue id a _ => if decide (ask_ray a = k) then Some id else None | _ => None end).
Definition calls (k : bool) : list event → list nat :=
  omap (λ e, match e with LCall id r _ _ _ _ => if decide (r = k) then Some id else None | _ => None end).
Definition unanswered : list event → list nat :=
  omap (λ e, match e with LNone id _ => Some id | _ => None end).

(** The hit nearest to the start of the ray among the entities [es]. *)
Definition nearest (frac : nat → option Z) (es : list nat) (e : option nat) (f : option Z) : Prop :=
  match e, f with
  | Some e, Some f => e ∈ es ∧ frac e = Some f ∧ ∀ e' f', e' ∈ es → frac e' = Some f' → f ≤ f'
  | None, None => ∀ e', e' ∈ es → frac e' = None
  | _, _ => False
  end.

(** What the worker should answer in the state [w].  [ign]: worker entities to
    ignore.  A ray is answered only if it touches the bounds of some entity. *)
Definition ray_answer_ok (w : world) (geo : nat) (ign : list nat) (ans : answer) : Prop :=
  match ans with
  | AnsRay e f => nearest (w_frac w geo) (filter (λ e, e ∉ ign) (w_ray w geo)) e f
                  ∧ ∃ e', e' ∈ filter (λ e, e ∉ ign) (w_ray w geo)
  | _ => False
  end.
Definition box_answer_ok (w : world) (a : ask) (ans : answer) : Prop :=
  match a, ans with
  | AskBox g p n i, AnsBox isl pr np =>
      isl = (if i then w_isl w g else []) ∧ pr = (if p then w_proc w g else [])
      ∧ np = (if n then w_np w g else [])
  | AskInterest g, AnsBox isl pr np =>
      NoDup isl ∧ NoDup pr ∧ NoDup np
      ∧ (∀ i, i ∈ isl ↔ i ∈ w_isl w g) ∧ (∀ e, e ∈ np ↔ e ∈ w_np w g)
      ∧ ∀ e, e ∈ pr ↔ ∃ i, i ∈ w_isl w g
          ∧ (e ∈ w_nodes w i ∧ w_procedural w e = true ∨ e ∈ w_edges w i ∧ w_manifold w e = false)
  | _, _ => False
  end.

(** [ans] is a right answer to request [id] of kind [k]: to a ray, for the entities
    to ignore known when the worker took the ray ([w0]) and the state [w] in which
    it cast it; to a box, for the state in which the worker handled it. *)
Definition answered (log : list event) (k : bool) (id : nat) (ans : answer) : Prop :=
  ∃ a d w, LIssue id a d ∈ log ∧ ask_ray a = k ∧ LAnswer id k w ans ∈ log
    ∧ match a with
      | AskRay g ign => ∃ w0, LTake id w0 ∈ log ∧ ray_answer_ok w g (omap (λ e, w_map w0 !! e) ign) ans
      | _ => box_answer_ok w a ans
      end.
(** A ray that hit the bounds of no entity that is not ignored. *)
Definition ray_missed (log : list event) (id : nat) (w : world) : Prop :=
  ∃ g ign d w0, LIssue id (AskRay g ign) d ∈ log ∧ LTake id w0 ∈ log
    ∧ ∀ e, e ∈ w_ray w g → e ∈ omap (λ e, w_map w0 !! e) ign.
