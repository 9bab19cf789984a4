(** Property theorems: child lists (C43). *)
From Verif Require Import Outcome MapProofs ChildModel ChildSpec ChildProofs.

(** Along every history of add_child (parent is a graph node, child carries no
    child information), remove_child (from its parent or from another one) and
    dropping the child information of entities in no list: every call returns,
    and walking a parent's list terminates and yields exactly the children
    added and not removed, latest first, each once; no child is in two lists. *)
Theorem C43_child_lists nodes ops s :
  orun (chspec nodes) (ChS ∅ ∅) ops = Some s →
  ∃ r, rrun chstep (CReg nodes ∅ ∅) ops = Ok r ∧
    (∀ p, children r p = Ok (kids s p) ∧ NoDup (kids s p)) ∧
    (∀ p q x, x ∈ kids s p → x ∈ kids s q → p = q) ∧
    (∀ p x, x ∈ kids s p → ∃ n, c_list r !! x = Some (Some p, n)).
Proof.
  intros (r & Hr & HR)%child_main. exists r. split_and!; try done.
  - intros p. by apply (children_spec nodes).
  - unfold kids. intros p q x. destruct (ch_kids s !! p) eqn:E1, (ch_kids s !! q) eqn:E2; simpl; try (by intros ?%elem_of_nil); try (by intros ? ?%elem_of_nil).
    intros. by eapply (hr_disj _ _ _ HR).
  - unfold kids. intros p x. destruct (ch_kids s !! p) eqn:E1; simpl; try (by intros ?%elem_of_nil).
    intros. by eapply (hr_parent _ _ _ HR).
Qed.

(** A removed child cannot simply be added again: it still carries the
    component that add_child emplaces. *)
Theorem C43_readd_refuted :
  ∃ nodes ops p c, is_ok (rrun chstep (CReg nodes ∅ ∅) ops) = true ∧
    rrun chstep (CReg nodes ∅ ∅) (ops ++ [ChAdd p c]) = UB.
Proof. exists {[0]}, [ChAdd 0 1; ChRemove 0 1], 0, 1. split; vm_compute; reflexivity. Qed.

Example C43_case :
  ∃ s, orun (chspec {[0; 5]}) (ChS ∅ ∅)
    [ChAdd 0 1; ChAdd 0 2; ChAdd 5 3; ChAdd 0 4; ChRemove 0 2; ChRemove 0 3; ChDetach 2; ChAdd 5 2] = Some s ∧
    kids s 0 = [4; 1] ∧ kids s 5 = [2; 3].
Proof. eexists. split_and!; vm_compute; reflexivity. Qed.

Print Assumptions C43_child_lists.
Print Assumptions C43_readd_refuted.
