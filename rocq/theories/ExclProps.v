(** Property theorems: collision exclusion and filtering (C12). *)
From Verif Require Import Outcome MapProofs ExclModel ExclSpec ExclProofs.

(** Along every history of calls meeting their preconditions: every call
    returns; each exclusion list holds exactly the bodies of the abstract pair
    set, without duplicates; exclusion is mutual; two bodies may collide exactly
    when they differ, are not such a pair and their filters meet. *)
Theorem C12_exclusion_mutual bodies filt ops s :
  orun (xspec bodies) (XS ∅ ∅) ops = Some s →
  ∃ r, rrun xstep (ExReg bodies ∅ filt) ops = Ok r ∧
    (∀ a, NoDup (ex_list r a) ∧ ∀ b, b ∈ ex_list r a ↔ (a, b) ∈ xs_pairs s) ∧
    (∀ a b, b ∈ ex_list r a ↔ a ∈ ex_list r b) ∧
    (∀ a b, should_exclude r a b = true ↔ (a, b) ∈ xs_pairs s) ∧
    (∀ a b, should_collide r a b = true ↔
       a ≠ b ∧ (a, b) ∉ xs_pairs s ∧ filters_meet (filt !! a) (filt !! b)).
Proof.
  intros (r & Hr & HR)%(excl_main bodies filt). exists r. pose proof (should_exclude_spec bodies s r) as HE.
  pose proof (ex_list_spec bodies s r) as HL.
  split_and!; try done; auto.
  - intros a b. rewrite (proj2 (HL a HR)), (proj2 (HL b HR)). split; apply HR.
  - intros a b. rewrite should_collide_iff. pose proof (xrun_filter _ _ _ Hr) as ->. simpl.
    pose proof (HE a b HR) as H1. pose proof (HE b a HR) as H2.
    pose proof (xr_sym _ _ _ HR a b) as H3. pose proof (xr_sym _ _ _ HR b a) as H4.
    destruct (should_exclude r a b), (should_exclude r b a); intuition congruence.
Qed.

(** The whole decision, including the filters, is symmetric in every registry
    state, reachable or not. *)
Theorem C12_should_collide_symmetric r a b : should_collide r a b = should_collide r b a.
Proof. exact (should_collide_sym r a b). Qed.

(** Necessity of the preconditions. *)
(** A seventeenth exclusion trips the capacity assertion. *)
Theorem C12_capacity_refuted :
  ∃ bodies ops a b, bodies ## ∅ ∧ is_ok (rrun xstep (ExReg bodies ∅ ∅) ops) = true ∧
    rrun xstep (ExReg bodies ∅ ∅) (ops ++ [XExclude a b]) = AssertFail.
Proof.
  exists (list_to_set (seq 0 18)), (XExclude 0 <$> seq 1 16), 0, 17.
  split_and!; [set_solver|vm_compute; reflexivity|vm_compute; reflexivity].
Qed.
(** Excluding a body from itself (with another exclusion present) makes a later
    clear_collision_exclusion patch the null entity. *)
Theorem C12_self_exclusion_refuted :
  ∃ bodies ops a, is_ok (rrun xstep (ExReg bodies ∅ ∅) ops) = true ∧
    rrun xstep (ExReg bodies ∅ ∅) (ops ++ [XClear a]) = UB.
Proof.
  exists {[0; 1]}, [XExclude 0 0; XExclude 0 1], 0. split; vm_compute; reflexivity.
Qed.
(** Removing an exclusion from a body that never had one (or whose list was
    cleared) patches a missing component. *)
Theorem C12_remove_without_list_refuted :
  ∃ bodies ops a b, is_ok (rrun xstep (ExReg bodies ∅ ∅) ops) = true ∧
    rrun xstep (ExReg bodies ∅ ∅) (ops ++ [XRemove a b]) = UB.
Proof.
  exists {[0; 1]}, [XExclude 0 1; XClear 0], 0, 1. split; vm_compute; reflexivity.
Qed.

Example C12_case :
  ∃ s, orun (xspec {[0; 1; 2; 3]}) (XS ∅ ∅)
    [XExclude 0 1; XExclude 0 2; XExclude 3 0; XExclude 1 2; XRemove 1 0; XClear 2] = Some s ∧
    (0, 3) ∈ xs_pairs s ∧ (0, 1) ∉ xs_pairs s ∧ (0, 2) ∉ xs_pairs s.
Proof. eexists. split_and!; [vm_compute; reflexivity|..]; apply (bool_decide_unpack _); vm_compute; exact I. Qed.

Print Assumptions C12_exclusion_mutual.
Print Assumptions C12_should_collide_symmetric.
Print Assumptions C12_capacity_refuted.
Print Assumptions C12_self_exclusion_refuted.
Print Assumptions C12_remove_without_list_refuted.
