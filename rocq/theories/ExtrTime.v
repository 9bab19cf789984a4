(** C51: how far one extrapolation goes.  Model of the time keeping of
    extrapolation_worker.cpp: [begin_extrapolation] 291–297, [should_step]
    475–491, [finish_step] 512–523, [extrapolate] 525–543, the timestamp and
    [terminated_early] of the result (459, 469).

    Times are integers instead of doubles.  [clock i] is the i-th value
    [time_func] returns during this extrapolation, arbitrary; what a step does
    besides is not modelled. *)
From Verif Require Import Outcome.
Open Scope Z_scope.

(** Result: timestamp, steps done, terminated early. *)
Record xresult := XResult { xr_time : Z; xr_steps : nat; xr_early : bool }.

(** [while (should_step(request)) { … finish_step(); }]; [k] counts calls of
    [time_func], [n] is [m_step_count]. *)
Fixpoint x_loop (fuel : nat) (clock : nat → Z) (init limit dt cur : Z) (k n : nat) : res xresult :=
  match fuel with
  | O => NoFuel
  | S fuel =>
      let time := clock k in
      if bool_decide (limit < time - init) then Ok (XResult cur n true)   (* 479–483 *)
      else if bool_decide (time < cur) then Ok (XResult cur n false)      (* 485–488 *)
      else x_loop fuel clock init limit dt (cur + dt) (S k) (S n)
  end.
Definition x_extrapolate (fuel : nat) (clock : nat → Z) (limit dt start : Z) : res xresult :=
  x_loop fuel clock (clock 0%nat) limit dt start 1 0.

(** Steps that fit between the start time and the deadline. *)
Definition x_bound (init limit dt start : Z) : nat :=
  if bool_decide (init + limit < start) then 0 else S (Z.to_nat ((init + limit - start) / dt)).

Lemma x_loop_ok fuel clock init limit dt cur k n :
  0 < dt → (x_bound init limit dt cur < fuel)%nat →
  ∃ r, x_loop fuel clock init limit dt cur k n = Ok r
    ∧ ∃ m, xr_steps r = (n + m)%nat ∧ xr_time r = cur + dt * Z.of_nat m
        ∧ (m ≤ x_bound init limit dt cur)%nat
        ∧ (∀ i, (i < m)%nat → cur + dt * Z.of_nat i ≤ clock (k + i)%nat
                ∧ clock (k + i)%nat - init ≤ limit)
        ∧ (if xr_early r then limit < clock (k + m)%nat - init
           else clock (k + m)%nat < xr_time r ∧ clock (k + m)%nat - init ≤ limit).
Proof.
  intros Hdt. revert cur k n. induction fuel as [|fuel IH]; intros cur k n Hf; [lia|]. cbn [x_loop].
  case_bool_decide as H1.
  { eexists. split; [done|]. exists 0%nat. cbn.
    split; [lia|]. split; [lia|]. split; [lia|]. split; [intros; lia|].
    replace (k + 0)%nat with k by lia. lia. }
  case_bool_decide as H2.
  { eexists. split; [done|]. exists 0%nat. cbn.
    split; [lia|]. split; [lia|]. split; [lia|]. split; [intros; lia|].
    replace (k + 0)%nat with k by lia. lia. }
  assert (Hb : x_bound init limit dt cur = S (x_bound init limit dt (cur + dt))).
  { unfold x_bound. rewrite bool_decide_eq_false_2 by lia. case_bool_decide as H3.
    - rewrite Z.div_small by lia. done.
    - f_equal. replace (init + limit - cur) with (init + limit - (cur + dt) + 1 * dt) by lia.
      rewrite Z.div_add by lia. rewrite Z2Nat.inj_add; [|apply Z.div_pos; lia|lia]. lia. }
  destruct (IH (cur + dt) (S k) (S n)) as (r & E & m & Hn & Ht & Hm & Hi & Hend); [lia|].
  exists r. split; [done|]. exists (S m). rewrite Hb. split; [lia|]. split; [lia|]. split; [lia|].
  split.
  - intros [|i] Hlt.
    + replace (k + 0)%nat with k by lia. lia.
    + specialize (Hi i ltac:(lia)). replace (k + S i)%nat with (S k + i)%nat by lia. lia.
  - replace (k + S m)%nat with (S k + m)%nat by lia. done.
Qed.

(** Whatever the clock does, the extrapolation ends after a bounded number of
    steps; the result carries the time of its last step, the state advanced by
    whole steps from the start time. *)
Theorem C51_ends clock limit dt start :
  0 < dt →
  ∃ r, (∀ fuel, (x_bound (clock 0%nat) limit dt start < fuel)%nat →
          x_extrapolate fuel clock limit dt start = Ok r)
    ∧ xr_time r = start + dt * Z.of_nat (xr_steps r)
    ∧ (xr_steps r ≤ x_bound (clock 0%nat) limit dt start)%nat
    ∧ (∀ i, (i < xr_steps r)%nat → start + dt * Z.of_nat i ≤ clock (S i))
    ∧ (xr_early r = true → limit < clock (S (xr_steps r)) - clock 0%nat)
    ∧ (xr_early r = false → clock (S (xr_steps r)) < xr_time r
         ∧ clock (S (xr_steps r)) - clock 0%nat ≤ limit).
Proof.
  intros Hdt.
  destruct (x_loop_ok (S (x_bound (clock 0%nat) limit dt start)) clock (clock 0%nat) limit dt start 1 0 Hdt
              ltac:(lia)) as (r & E & m & Hn & Ht & Hm & Hi & He).
  cbn in Hn. exists r. rewrite !Hn. split; [|split; [done|split; [done|split]]].
  - intros fuel Hf. unfold x_extrapolate.
    destruct (x_loop_ok fuel clock (clock 0%nat) limit dt start 1 0 Hdt Hf)
      as (r' & E' & m' & Hn' & Ht' & Hm' & Hi' & He').
    rewrite E'. f_equal. cbn in Hn'.
    assert (m = m' ∧ xr_early r = xr_early r') as [-> Ee].
    { destruct (Nat.lt_trichotomy m m') as [Hl|[->|Hl]].
      - specialize (Hi' m Hl). destruct (xr_early r); lia.
      - split; [done|]. destruct (xr_early r), (xr_early r'); try done; lia.
      - specialize (Hi m' Hl). destruct (xr_early r'); lia. }
    destruct r, r'; cbn in *. subst. done.
  - intros i Hlt. apply Hi in Hlt. replace (S i) with (1 + i)%nat by lia. lia.
  - replace (S m) with (1 + m)%nat by lia. destruct (xr_early r); naive_solver.
Qed.

(** With a clock that does not go back, an extrapolation that is not cut short
    ends less than or exactly one step after the present. *)
Theorem C51_catches_up fuel clock limit dt start r :
  0 < dt → (∀ i, clock i ≤ clock (S i)) → start ≤ clock 0%nat →
  x_extrapolate fuel clock limit dt start = Ok r → xr_early r = false →
  clock (S (xr_steps r)) < xr_time r ≤ clock (S (xr_steps r)) + dt.
Proof.
  intros Hdt Hm Hs E He.
  destruct (C51_ends clock limit dt start Hdt) as (r' & E' & Ht & Hb & Hi & _ & Hf).
  assert (r' = r) as ->.
  { assert (∀ fuel' fuel cur k n r, (fuel ≤ fuel')%nat → x_loop fuel clock (clock 0%nat) limit dt cur k n = Ok r →
      x_loop fuel' clock (clock 0%nat) limit dt cur k n = Ok r) as Hmono.
    { induction fuel' as [|fuel' IH]; intros [|f] cur k n r0 Hle H0; try done; [lia|]. cbn in *.
      case_bool_decide; [done|]. case_bool_decide; [done|]. apply (IH f); [lia|done]. }
    specialize (E' (S (x_bound (clock 0%nat) limit dt start + fuel)) ltac:(lia)).
    unfold x_extrapolate in *. apply (Hmono (S (x_bound (clock 0%nat) limit dt start + fuel))) in E; [|lia].
    congruence. }
  specialize (Hf He). split; [lia|].
  destruct (xr_steps r) as [|m] eqn:Em.
  - specialize (Hm 0%nat). lia.
  - specialize (Hi m ltac:(lia)). pose proof (Hm (S m)). lia.
Qed.

(** From time 0 with steps of 10 and a clock that starts at 95 and advances 3 per
    reading: ends at 150 after 15 steps; with a limit of 20 cut short at 60. *)
Definition clk (i : nat) : Z := 95 + 3 * Z.of_nat i.
Example C51_case :
  x_extrapolate 20 clk 1000 10 0 = Ok (XResult 150 15 false)
  ∧ x_extrapolate 20 clk 20 10 0 = Ok (XResult 60 6 true).
Proof. split; vm_compute; reflexivity. Qed.

(** Without a positive step the loop need not end. *)
Theorem C51_zero_step_refuted fuel : x_extrapolate fuel (λ _, 5) 1 0 0 = NoFuel.
Proof.
  assert (∀ k n, x_loop fuel (λ _, 5) 5 1 0 0 k n = NoFuel) as H; [|apply H].
  induction fuel as [|f IH]; intros k n; [done|]. cbn [x_loop].
  rewrite bool_decide_eq_false_2 by lia. rewrite bool_decide_eq_false_2 by lia. apply IH.
Qed.

Print Assumptions C51_ends.
Print Assumptions C51_catches_up.
Print Assumptions C51_zero_step_refuted.
