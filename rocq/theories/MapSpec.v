(** Specifications for entity_map and contact_manifold_map, independent of the
    model: sets of pairs. *)
From stdpp Require Export prelude list gmap.

(** Running a list of operations of a partial abstract machine. *)
Fixpoint orun {S O} (step : S → O → option S) (s : S) (ops : list O) : option S :=
  match ops with
  | [] => Some s
  | o :: ops => s' ← step s o; orun step s' ops
  end.

(** ** Partial bijection between remote and local entities *)
Inductive eop :=
| EInsert (e l : nat) | EErase (e : nat) | EEraseLocal (l : nat)
| EEraseIf (p : nat → nat → bool) | ESwap | EClear.

(** The set of (remote, local) pairs inserted and not erased; [None]: the call
    breaks its precondition (fresh on both sides / present). *)
Definition espec (s : gset (nat * nat)) (o : eop) : option (gset (nat * nat)) :=
  match o with
  | EInsert e l =>
    if decide (set_Forall (λ p, p.1 ≠ e ∧ p.2 ≠ l) s) then Some ({[(e, l)]} ∪ s) else None
  | EErase e =>
    if decide (set_Exists (λ p, p.1 = e) s) then Some (filter (λ p, p.1 ≠ e) s) else None
  | EEraseLocal l =>
    if decide (set_Exists (λ p, p.2 = l) s) then Some (filter (λ p, p.2 ≠ l) s) else None
  | EEraseIf p => Some (filter (λ q, p q.1 q.2 = false) s)
  | ESwap => Some (set_map (λ p, (p.2, p.1)) s)
  | EClear => Some ∅
  end.

(** ** Live manifolds: manifold entity -> its two bodies *)
Inductive mop := MCreate (m a b : nat) | MDestroy (m : nat) | MSwap (m : nat).
Definition same_pair (p q : nat * nat) : Prop := p = q ∨ p = (q.2, q.1).
Global Instance same_pair_dec p q : Decision (same_pair p q).
Proof. unfold same_pair. apply _. Defined.
(** A manifold is created for a pair that has none (the broadphase checks
    this) and only live manifolds are destroyed or swapped. *)
Definition mspec (s : gmap nat (nat * nat)) (o : mop) : option (gmap nat (nat * nat)) :=
  match o with
  | MCreate m a b =>
    if decide (s !! m = None ∧ map_Forall (λ _ p, ¬ same_pair p (a, b)) s)
    then Some (<[m := (a, b)]> s) else None
  | MDestroy m => p ← s !! m; Some (delete m s)
  | MSwap m => '(a, b) ← s !! m; Some (<[m := (b, a)]> s)
  end.
