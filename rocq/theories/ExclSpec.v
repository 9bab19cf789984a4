(** Specification of collision exclusion: a set of ordered pairs and the set of
    bodies that currently have an exclusion list. *)
From Verif Require Export MapSpec.

Inductive xop := XExclude (a b : nat) | XRemove (a b : nat) | XClear (a : nat).
Record xstate := XS { xs_pairs : gset (nat * nat); xs_lists : gset nat }.
Definition degree (s : xstate) (a : nat) : nat := size (filter (λ p, p.1 = a) (xs_pairs s)).

(** [None]: the call breaks its precondition.  [bodies] are the rigid bodies. *)
Definition xspec (bodies : gset nat) (s : xstate) (o : xop) : option xstate :=
  match o with
  | XExclude a b =>
    if decide (a ≠ b ∧ a ∈ bodies ∧ b ∈ bodies ∧
               ((a, b) ∈ xs_pairs s ∨ degree s a < 16 ∧ degree s b < 16))
    then Some (XS (xs_pairs s ∪ {[(a, b); (b, a)]}) (xs_lists s ∪ {[a; b]})) else None
  | XRemove a b =>
    if decide (a ∈ xs_lists s ∧ b ∈ xs_lists s)
    then Some (XS (xs_pairs s ∖ {[(a, b); (b, a)]}) (xs_lists s)) else None
  | XClear a =>
    if decide (a ∈ xs_lists s)
    then Some (XS (filter (λ p, p.1 ≠ a ∧ p.2 ≠ a) (xs_pairs s)) (xs_lists s ∖ {[a]})) else None
  end.

(** Filter rule: each body's group must meet the other's mask; a body without a
    filter has every bit set in both. *)
Definition filters_meet (f0 f1 : option (N * N)) : Prop :=
  let '(g0, m0) := default (N.ones 64, N.ones 64) f0 in
  let '(g1, m1) := default (N.ones 64, N.ones 64) f1 in
  N.land g0 m1 ≠ 0%N ∧ N.land g1 m0 ≠ 0%N.
