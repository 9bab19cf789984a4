(** What a trace of a clock synchronisation must look like. *)
From Verif Require Export ClockTypes.
Local Open Scope nat_scope.

Section spec.
Context {D : Type} (o : num D).

(** The two exchanges agree: round-trip times within 10% of the first, and the
    progress of the remote clock within 10% of the mean round-trip time. *)
Definition consistent (rtt0 rtt1 remote_dt : D) : Prop :=
  let rtt := n_div o (n_add o rtt0 rtt1) (n_nat o 2) in
  n_gt o (n_abs o (n_sub o rtt0 rtt1)) (n_mul o rtt0 (n_tenth o)) = false ∧
  n_gt o (n_abs o (n_sub o rtt remote_dt)) (n_mul o rtt (n_tenth o)) = false.
(** The offset estimated from an exchange: sent at [t1], answered with [ts],
    answer received at [t2]. *)
Definition offset_of (t1 ts t2 : D) : D := n_sub o t2 (n_add o ts (n_div o (n_sub o t2 t1) (n_nat o 2))).

(** Every response taken into account answers the request sent just before, and
    every sample comes from two consecutive consistent exchanges. *)
Definition trace_ok (tr : list (cs_log D)) : Prop :=
  (∀ i id ts t, tr !! S i = Some (Recv id ts t) → ∃ t0, tr !! i = Some (Sent id t0)) ∧
  (∀ id ts t, tr !! 0 ≠ Some (Recv id ts t)) ∧
  (∀ i d, tr !! i = Some (Sample d) →
     ∃ j id0 t0 ts0 t1 id1 ts1 t2, i = j + 4 ∧ tr !! j = Some (Sent id0 t0) ∧ tr !! (j + 1) = Some (Recv id0 ts0 t1) ∧
       tr !! (j + 2) = Some (Sent id1 t1) ∧ tr !! (j + 3) = Some (Recv id1 ts1 t2) ∧
       consistent (n_sub o t1 t0) (n_sub o t2 t1) (n_sub o ts1 ts0) ∧ d = offset_of t1 ts1 t2).

(** The samples in a trace, and their mean. *)
Definition samples_of (tr : list (cs_log D)) : list D :=
  omap (λ e, match e with Sample d => Some d | _ => None end) tr.
Definition mean (l : list D) : D := n_div o (foldl (n_add o) (n_nat o 0) l) (n_nat o (length l)).
(** The offset after the samples [l]: the mean of the last complete round of
    five; during the first round the mean of those there are; zero before. *)
Definition offset_after (l : list D) : D :=
  match l with
  | [] => n_nat o 0
  | _ => if length l <? 5 then mean l else mean (take 5 (drop (5 * (length l / 5 - 1)) l))
  end.
End spec.
