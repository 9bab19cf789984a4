(** Accuracy of the clock synchronisation, over the rational numbers. *)
From Coq Require Import QArith Qabs Lqa.
From Verif Require Import Outcome ClockModel ClockSpec ClockProofs.
Local Open Scope nat_scope.

Definition num_Q : num Q :=
  Num Qplus Qminus Qmult Qdiv Qabs (λ x y, negb (Qle_bool x y)) (λ n, inject_Z (Z.of_nat n)) (1 # 10) (14 # 10).
Lemma offset_error (t1 ts t2 θ B : Q) :
  (t1 <= ts + θ)%Q → (ts + θ <= t2)%Q → (t2 - t1 <= B)%Q →
  (- B <= 2 * (offset_of num_Q t1 ts t2 - θ))%Q ∧ (2 * (offset_of num_Q t1 ts t2 - θ) <= B)%Q.
Proof.
  intros H1 H2 H3. unfold offset_of. cbn [num_Q n_sub n_add n_div n_nat].
  change (inject_Z (Z.of_nat 2)) with 2%Q.
  assert (E : (2 * (t2 - (ts + (t2 - t1) / 2) - θ) == t2 + t1 - 2 * ts - 2 * θ)%Q) by (field).
  rewrite E. split; lra.
Qed.
Lemma sum_error (θ b : Q) l acc n : (- (n * b) <= acc - n * θ)%Q → (acc - n * θ <= n * b)%Q →
  Forall (λ d, - b <= d - θ ∧ d - θ <= b)%Q l →
  let m := (n + inject_Z (Z.of_nat (length l)))%Q in
  (- (m * b) <= foldl Qplus acc l - m * θ)%Q ∧ (foldl Qplus acc l - m * θ <= m * b)%Q.
Proof.
  intros H1 H2 F. revert acc n H1 H2. induction F as [|d l [D1 D2] _ IH]; intros acc n H1 H2 m.
  - cbn [foldl length] in *. assert (E : (m == n)%Q) by (unfold m; cbn; ring). rewrite E. auto.
  - cbn [foldl]. destruct (IH (acc + d)%Q (n + 1)%Q) as [X Y].
    + lra.
    + lra.
    + assert (E : (m == n + 1 + inject_Z (Z.of_nat (length l)))%Q).
      { unfold m. cbn [length]. rewrite Nat2Z.inj_succ. unfold Z.succ. rewrite inject_Z_plus. ring. }
      rewrite E. auto.
Qed.
Lemma mean_error (θ b : Q) l : l ≠ [] → Forall (λ d, - b <= d - θ ∧ d - θ <= b)%Q l →
  (- b <= mean num_Q l - θ)%Q ∧ (mean num_Q l - θ <= b)%Q.
Proof.
  intros N F. unfold mean. cbn [num_Q n_add n_div n_nat].
  destruct (sum_error θ b l (inject_Z (Z.of_nat 0)) 0%Q) as [X Y]; [change (inject_Z (Z.of_nat 0)) with 0%Q; lra..|done|].
  set (s := foldl Qplus (inject_Z (Z.of_nat 0)) l) in *. set (k := inject_Z (Z.of_nat (length l))) in *.
  assert (K : (0 < k)%Q).
  { unfold k. destruct l; [done|]. cbn [length]. change 0%Q with (inject_Z 0). rewrite <- Zlt_Qlt. lia. }
  assert (E : (0 + k == k)%Q) by ring. rewrite E in X, Y.
  split.
  - assert (θ - b <= s / k)%Q; [|lra]. apply Qle_shift_div_l; [done|]. lra.
  - assert (s / k <= θ + b)%Q; [|lra]. apply Qle_shift_div_r; [done|]. lra.
Qed.


Lemma offset_after_error (θ b : Q) l : l ≠ [] → Forall (λ d, - b <= d - θ ∧ d - θ <= b)%Q l →
  (- b <= offset_after num_Q l - θ)%Q ∧ (offset_after num_Q l - θ <= b)%Q.
Proof.
  intros N F. unfold offset_after. destruct l as [|x l]; [done|].
  destruct (Nat.ltb_spec (length (x :: l)) 5) as [L|L]; [by apply mean_error|].
  apply mean_error.
  - intros E. apply (f_equal length) in E. rewrite take_length, drop_length in E. cbn [length] in E, L.
    pose proof (Nat.div_mod (S (length l)) 5 ltac:(lia)) as X.
    assert (1 ≤ S (length l) / 5) by (apply Nat.div_le_lower_bound; lia).
    destruct (S (length l) / 5) as [|q]; [lia|]. rewrite Nat.sub_succ, Nat.sub_0_r in E.
    lia.
  - by apply Forall_take, Forall_drop.
Qed.
(** The samples of a trace come from its exchanges. *)
Lemma samples_error (θ B : Q) tr :
  trace_ok num_Q tr →
  (∀ i id t1 ts t2, tr !! i = Some (Sent id t1) → tr !! S i = Some (Recv id ts t2) →
     t1 <= ts + θ ∧ ts + θ <= t2 ∧ t2 - t1 <= B)%Q →
  Forall (λ d, - (B / 2) <= d - θ ∧ d - θ <= B / 2)%Q (samples_of tr).
Proof.
  intros (_ & _ & K) H. apply Forall_forall. intros d Hd. unfold samples_of in Hd.
  apply elem_of_list_omap in Hd as (e & He & Ed). destruct e; [done..|]. injection Ed as ->.
  apply elem_of_list_lookup in He as [i Hi].
  destruct (K _ _ Hi) as (j & id0 & t0 & ts0 & t1 & id1 & ts1 & t2 & -> & _ & _ & H1 & H2 & _ & ->).
  replace (j + 3) with (S (j + 2)) in H2 by lia. destruct (H _ _ _ _ _ H1 H2) as (A & C & E).
  destruct (offset_error t1 ts1 t2 θ B A C E) as [X Y].
  assert (B / 2 == B * (1 # 2))%Q as Z by field. rewrite Z. split; lra.
Qed.
