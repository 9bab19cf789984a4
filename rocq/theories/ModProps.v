(** C30: tracking of recently modified components. *)
From Verif Require Import ModModel ModSpec ModProofs.
Local Open Scope Z_scope.

(** After every sequence of modifications and advances of time, the recorded list has
    no duplicates and holds exactly the components whose time since the last
    modification is at most 400 ms. *)
Theorem C30_pending n os l :
  Forall mop_ok os → mrun n [] os = Ok l →
  NoDup (m_idx <$> l) ∧ ∀ i, i ∈ m_idx <$> l ↔ pending os i.
Proof. exact (mrun_pending n os l). Qed.
Print Assumptions C30_pending.

(** Nothing is left once everything decayed. *)
Theorem C30_empty n os l :
  Forall mop_ok os → mrun n [] os = Ok l → (∀ i s, since i None os = Some s → 400 < s) → l = [].
Proof.
  intros F E H. destruct (mrun_pending n os l F E) as [_ P]. destruct l as [|x l]; [done|exfalso].
  destruct (proj1 (P (m_idx x))) as (s & S1 & S2); [by left|]. specialize (H _ _ S1). lia.
Qed.
Print Assumptions C30_empty.

(** No assertion fails as long as one of the component types is never modified
    (which holds for the tag components, since only non-empty ones can change). *)
Theorem C30_no_failure n j os :
  Forall mop_ok os → (j < n)%nat → (∀ i, Bump i ∈ os → (i < n)%nat ∧ i ≠ j) → ∃ l, mrun n [] os = Ok l.
Proof. intros F J B. by apply (mrun_fine n j os (λ _, None) []); [done|apply rep_nil|..]. Qed.
Print Assumptions C30_no_failure.

(** With all component types pending, recording any modification trips the assertion,
    also one of a component that is already present. *)
Theorem C30_full_refuted n os l i :
  Forall mop_ok os → mrun n [] os = Ok l → (∀ j, (j < n)%nat → pending os j) →
  mrun n [] (os ++ [Bump i]) = AssertFail.
Proof. exact (mrun_full n os l i). Qed.
Print Assumptions C30_full_refuted.

(** In real time: after the last modification of [i] a component stays pending while less
    than 401 ms passed between the update before the modification and the latest one; it
    is gone once 401 ms, plus one millisecond per update in between, have passed. *)
Theorem C30_real_time n pre i post s :
  xrun n exporter_init (pre ++ Modify i :: post) = Ok s → Modify i ∉ post →
  let elapsed := x_last s - last_update 0 pre in
  (elapsed < 401000 → i ∈ m_idx <$> x_mod s) ∧
  (401000 + 1000 * Z.of_nat (num_updates post) ≤ elapsed → i ∉ m_idx <$> x_mod s).
Proof. exact (xrun_pending n pre i post s). Qed.
Print Assumptions C30_real_time.

(** The retention is counted from the update before the modification: a component
    modified between two updates that are 402 ms or more apart is forgotten by the second
    update, before any export could include it. *)
Theorem C30_lost_refuted n pre i t s :
  xrun n exporter_init (pre ++ [Modify i; Update t]) = Ok s → last_update 0 pre + 402000 ≤ t →
  i ∉ m_idx <$> x_mod s.
Proof.
  intros E T. destruct (xrun_pending n pre i [Update t] s E) as [_ H].
  { by intros [?|?%elem_of_nil]%elem_of_cons. }
  apply H. apply xrun_mrun in E as (_ & _ & E). rewrite E. cbn [num_updates exporter_init x_last].
  assert (L : ∀ z, last_update z (pre ++ [Modify i; Update t]) = t).
  { clear. induction pre as [|[j|u] pre IH]; intros z; cbn; [done|apply IH|apply IH]. }
  rewrite L. lia.
Qed.
Print Assumptions C30_lost_refuted.

(** Updates less than a millisecond apart count no time at all: after any number of them
    the component is pending still. *)
Theorem C30_never_refuted n i k :
  (0 < n)%nat → ∃ s, xrun n exporter_init (Modify i :: every 999 0 k) = Ok s ∧
    x_last s = 999 * Z.of_nat k ∧ i ∈ m_idx <$> x_mod s.
Proof.
  intros N. cbn [xrun xstep exporter_init x_mod x_last]. unfold mc_bump.
  rewrite bool_decide_true by done. cbn [assert_ mbind res_bind existsb app].
  destruct (every_never n k 0 i duration) as (r & E & R); [by unfold duration|].
  rewrite E. eexists. split; [done|]. cbn. split; [lia|by left].
Qed.
Print Assumptions C30_never_refuted.

(** Concrete cases. *)
Definition c30_ops := [Bump 1; Bump 2; Decay 150; Bump 1; Decay 251; Bump 0; Decay 149].
Example C30_case : mrun 4 [] c30_ops = Ok [MEntry 1 0; MEntry 0 251] ∧ Forall mop_ok c30_ops ∧
  since 1 None c30_ops = Some 400 ∧ since 2 None c30_ops = Some 550 ∧ since 0 None c30_ops = Some 149.
Proof. split; [by vm_compute|]. split; [by repeat constructor|]. by vm_compute. Qed.
Example C30_full_case : mrun 2 [] [Bump 0; Bump 1; Bump 1] = AssertFail.
Proof. by vm_compute. Qed.
Example C30_real_case :
  xrun 3 exporter_init [Modify 0; Update 200000; Modify 1; Update 500500; Update 600500]
    = Ok (Exporter 600500 [MEntry 1 0]) ∧
  xrun 3 exporter_init [Update 100000; Modify 1; Update 600000] = Ok (Exporter 600000 []).
Proof. by vm_compute. Qed.
