(** Theorems for C26. *)
From Coq Require Import QArith.
From Verif Require Import Outcome ClockModel ClockSpec ClockProofs ClockQ.
Local Open Scope nat_scope.

(** Whatever happens, in any order and with any arithmetic: nothing undefined is
    done (no sample stored outside of the five, no member read before it is
    assigned), every response taken into account answers the request sent just
    before it, samples come from two consecutive consistent exchanges, and the
    offset is the mean of the last complete round of five. *)
Theorem C26_synchronisation {D} (o : num D) delay period events :
  ∃ c, cs_run o (cs_init o delay period) events = Ok c ∧
    trace_ok o (cs_trace c) ∧
    cs_delta c = offset_after o (samples_of (cs_trace c)) ∧
    cs_count c = length (samples_of (cs_trace c)) / 5.
Proof.
  destruct (inv_run o events _ (inv_init o delay period)) as (c & E & I). exists c. split; [done|].
  split; [apply I|]. split; [apply I|]. symmetry. by apply (five _ _ (cs_num c)); apply I.
Qed.
(** A response is taken into account exactly when the last thing that happened is
    that this request was sent; otherwise it changes nothing. *)
Theorem C26_responses {D} (o : num D) delay period events c id ts time r :
  cs_run o (cs_init o delay period) events = Ok c →
  (∀ t, last (cs_trace c) = Some (Sent id t) →
     ∃ c' rest, cs_step o c (CsResponse id ts time r) = Ok c' ∧ cs_trace c' = cs_trace c ++ Recv id ts time :: rest) ∧
  ((∀ t, last (cs_trace c) ≠ Some (Sent id t)) → cs_step o c (CsResponse id ts time r) = Ok c).
Proof.
  intros E. destruct (inv_run o events _ (inv_init o delay period)) as (c1 & E1 & I).
  assert (c1 = c) as -> by congruence. split.
  - intros t H. by eapply response_counts.
  - intros H. by apply response_ignored.
Qed.
(** With exact arithmetic, a remote clock that differs from the local one by θ,
    and round-trip times of at most B, the offset is off by at most B/2. *)
Theorem C26_accuracy delay period events c θ B :
  cs_run num_Q (cs_init num_Q delay period) events = Ok c →
  (∀ i id t1 ts t2, cs_trace c !! i = Some (Sent id t1) → cs_trace c !! S i = Some (Recv id ts t2) →
     t1 <= ts + θ ∧ ts + θ <= t2 ∧ t2 - t1 <= B)%Q →
  0 < cs_count c →
  (θ - B / 2 <= cs_delta c ∧ cs_delta c <= θ + B / 2)%Q.
Proof.
  intros E H N. destruct (inv_run num_Q events _ (inv_init num_Q delay period)) as (c1 & E1 & I).
  assert (c1 = c) as -> by congruence.
  destruct (offset_after_error θ (B / 2) (samples_of (cs_trace c))) as [X Y].
  - intros Z. pose proof (i_count num_Q c I) as L. rewrite Z in L. cbn [length] in L. lia.
  - apply (samples_error θ B); [apply I|done].
  - rewrite <- (i_delta num_Q c I) in X, Y. revert X Y. generalize (cs_delta c), (B / 2)%Q. intros. Lqa.lra.
Qed.
(** During the first round the offset is assigned already after one sample
    (nothing uses it before a round is complete). *)
Theorem C26_offset_only_at_rounds_refuted :
  ∃ events c c' e, cs_run num_Q (cs_init num_Q 1%Q 100%Q) events = Ok c ∧ cs_step num_Q c e = Ok c' ∧
    ¬ (cs_delta c' == cs_delta c)%Q ∧ cs_count c' = 0.
Proof.
  exists [CsUpdate 0%Q 1%Q 7; CsResponse 7 10%Q 2%Q 8]. do 2 eexists. exists (CsResponse 8 12%Q 4%Q 9).
  split; [vm_compute; reflexivity|]. split; [vm_compute; reflexivity|]. split; [vm_compute; discriminate|vm_compute; reflexivity].
Qed.
(** A case: a lost request, a stale response, then a full round. The remote
    clock is 9 behind. *)
Definition round (t : Q) (k : nat) : list (cs_event Q) :=
  [CsUpdate t 1%Q k; CsResponse k (t + 1 - 9)%Q (t + 2)%Q (S k); CsResponse (S k) (t + 3 - 9)%Q (t + 4)%Q 0].
Definition case_events : list (cs_event Q) :=
  [CsUpdate 0%Q 1%Q 1; CsUpdate 5%Q 1%Q 2; CsResponse 1 3%Q 6%Q 50;
   CsResponse 2 (6 - 9)%Q 7%Q 3; CsResponse 3 (8 - 9)%Q 9%Q 0] ++
  round 20%Q 10 ++ round 30%Q 20 ++ round 40%Q 30 ++ round 50%Q 40.
Example C26_case :
  ∃ c, cs_run num_Q (cs_init num_Q 1%Q 100%Q) case_events = Ok c ∧ cs_count c = 1 ∧ (cs_delta c == 9)%Q ∧
    length (samples_of (cs_trace c)) = 5 ∧ length (cs_trace c) = 26.
Proof. eexists. split; [vm_compute; reflexivity|]. split_and!; vm_compute; reflexivity. Qed.

Print Assumptions C26_synchronisation.
Print Assumptions C26_responses.
Print Assumptions C26_accuracy.
Print Assumptions C26_offset_only_at_rounds_refuted.
