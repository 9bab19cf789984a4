(** Specification for C52. *)
From Verif Require Import Outcome ParModel.

Section Spec.
Context {V : Type}.
Notation mem := (gmap nat V).

(** Two memories agree on the entities of [S]. *)
Definition agree (S : gset nat) (m m' : mem) : Prop := ∀ e, e ∈ S → m !! e = m' !! e.
(** [f] only changes [own] and what it does there depends on [own] and [shared]. *)
Definition local_to (own shared : gset nat) (f : mem → mem) : Prop :=
  (∀ m e, e ∉ own → f m !! e = m !! e)
  ∧ ∀ m m', agree (own ∪ shared) m m' → agree own (f m) (f m').

(** Islands own disjoint sets of entities (their procedural bodies, constraints and
    rows); the rest (non-procedural bodies) is only read. *)
Record separate (k : code V) (isles : list nat) (own : nat → gset nat) (shared : gset nat) : Prop := {
  sep_isles : NoDup isles;
  sep_own : ∀ i j, i ∈ isles → j ∈ isles → i ≠ j → own i ## own j;
  sep_shared : ∀ i, i ∈ isles → own i ## shared;
  sep_pack : ∀ i, i ∈ isles → local_to (own i) shared (k_pack k i);
  sep_solve : ∀ i, i ∈ isles → local_to (own i) shared (k_solve k i);
  sep_assign : ∀ i, i ∈ isles → local_to (own i) shared (k_assign k i);
  sep_pos : ∀ i, i ∈ isles → local_to (own i) shared (λ m, (k_pos k i m).1)
              ∧ ∀ m m', agree (own i ∪ shared) m m' → (k_pos k i m).2 = (k_pos k i m').2;
  sep_nodes : ∀ i e, i ∈ isles → e ∈ k_nodes k i → e ∈ own i
}.
(** A split of the bodies of each large island into jobs. *)
Definition splits (k : code V) (chunks : nat → list (list nat)) : Prop :=
  ∀ i, 64 < length (k_nodes k i) → chunks i ≠ [] ∧ concat (chunks i) ≡ₚ k_nodes k i.
(** How many operations of a history found something to do. *)
Fixpoint work (k : code V) (n p : nat) (chunks : nat → list (list nat)) (s : pst V) (os : list pop) : nat :=
  match os with
  | [] => 0
  | o :: os => (if enabled s o then 1 else 0) +
               match p_step k n p chunks s o with Ok s => work k n p chunks s os | _ => 0 end
  end.
End Spec.
