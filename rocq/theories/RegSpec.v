(** Specification of replication, independent of the model: what the source
    looks like after a history, and when one component value is the image of
    another under a renaming of entities. *)
From stdpp Require Export prelude list gmap.
From Verif Require Export RegTypes.

(** An entity reference at the source and at the destination, under a partial
    renaming: null corresponds to null, and a renamed entity to its new name. A
    reference to an entity that has no counterpart (any more) is unconstrained. *)
Definition ref_match (f : gmap nat nat) (a b : option nat) : Prop :=
  match a with
  | None => b = None
  | Some r => ∀ l, f !! r = Some l → b = Some l
  end.
Definition mem_match (f : gmap nat nat) (x y : mem) : Prop :=
  match x, y with
  | MRaw n, MRaw n' => n = n'
  | MEnt a, MEnt b => ref_match f a b
  | MArr l, MArr l' | MSeq l, MSeq l' => Forall2 (ref_match f) l l'
  | MAssoc a, MAssoc b => ∀ k, match a !! k, b !! k with
                               | Some x, Some y => ref_match f x y
                               | None, None => True
                               | _, _ => False
                               end
  | _, _ => False
  end.
Definition val_match (f : gmap nat nat) (v w : value) : Prop := Forall2 (mem_match f) v w.

(** The entities a value refers to satisfy [P]; an array has its nulls at the
    end, resizable containers have none. *)
Definition ref_ok (P : nat → Prop) (o : option nat) : Prop := match o with Some r => P r | None => True end.
Definition mem_ok (P : nat → Prop) (x : mem) : Prop :=
  match x with
  | MRaw _ => True
  | MEnt o => ref_ok P o
  | MArr l => ∃ rs n, l = (Some <$> rs) ++ replicate n None ∧ Forall P rs
  | MSeq l => ∃ rs, l = Some <$> rs ∧ Forall P rs
  | MAssoc a => map_Forall (λ _ o, ∃ r, o = Some r ∧ P r) a
  end.
Definition val_ok (P : nat → Prop) (v : value) : Prop := Forall (mem_ok P) v.

(** The source as its user sees it. *)
Record sstate := SState {
  ss_alive : gset nat; ss_next : nat;
  ss_comp : nat → nat → option value;      (* type, entity *)
  ss_obs : gset nat;                       (* currently replicated *)
  ss_seen : gset nat                       (* replicated at some point *)
}.
Section src.
(** The replicated types and the types without data. *)
Variable shared : list nat.
Variable empty_ty : nat → bool.

Definition upd {A} (f : nat → nat → option A) (t e : nat) (o : option A) : nat → nat → option A :=
  λ t' e', if decide (t' = t ∧ e' = e) then o else f t' e'.
(** A value that can be written: no data for an empty type, and when the
    component is being replicated it refers only to replicated entities. *)
Definition writable (s : sstate) (t e : nat) (v : value) : Prop :=
  (empty_ty t = true → v = []) ∧
  (e ∈ ss_obs s → t ∈ shared → val_ok (λ r, r ∈ ss_obs s) v).

Inductive sstep : sstate → act → sstate → Prop :=
| S_create s :
    sstep s ACreate (SState ({[ss_next s]} ∪ ss_alive s) (S (ss_next s)) (ss_comp s) (ss_obs s) (ss_seen s))
| S_destroy s e :
    e ∈ ss_alive s →
    sstep s (ADestroy e) (SState (ss_alive s ∖ {[e]}) (ss_next s)
      (λ t e', if decide (e' = e) then None else ss_comp s t e') (ss_obs s) (ss_seen s))
| S_emplace s t e v :
    e ∈ ss_alive s → ss_comp s t e = None → writable s t e v →
    sstep s (AEmplace t e v) (SState (ss_alive s) (ss_next s) (upd (ss_comp s) t e (Some v)) (ss_obs s) (ss_seen s))
| S_patch s t e v :
    is_Some (ss_comp s t e) → writable s t e v →
    sstep s (APatch t e v) (SState (ss_alive s) (ss_next s) (upd (ss_comp s) t e (Some v)) (ss_obs s) (ss_seen s))
| S_remove s t e :
    sstep s (ARemove t e) (SState (ss_alive s) (ss_next s) (upd (ss_comp s) t e None) (ss_obs s) (ss_seen s))
| S_observe s e :
    e ∈ ss_alive s → e ∉ ss_seen s →
    (∀ t v, t ∈ shared → ss_comp s t e = Some v → val_ok (λ r, r ∈ {[e]} ∪ ss_obs s) v) →
    sstep s (AObserve e) (SState (ss_alive s) (ss_next s) (ss_comp s) ({[e]} ∪ ss_obs s) ({[e]} ∪ ss_seen s))
| S_unobserve s e :
    e ∈ ss_obs s →
    sstep s (AUnobserve e) (SState (ss_alive s) (ss_next s) (ss_comp s) (ss_obs s ∖ {[e]}) (ss_seen s))
| S_flush s : sstep s AFlush s.

Inductive srun : sstate → list act → sstate → Prop :=
| srun_nil s : srun s [] s
| srun_cons s a s' l s'' : sstep s a s' → srun s' l s'' → srun s (a :: l) s''.

(** The destination, seen through the entity map [f], mirrors the source:
    every replicated entity has its own live counterpart with exactly the same
    replicated components, and values correspond for the types of [plain]. *)
Definition mirrors (plain : nat → Prop) (s : sstate) (f : gmap nat nat)
    (alive : nat → Prop) (comp : nat → nat → option value) : Prop :=
  (∀ e, e ∈ ss_obs s → ∃ l, f !! e = Some l ∧ alive l ∧
    ∀ t, t ∈ shared → match ss_comp s t e, comp t l with
                      | Some v, Some w => plain t → val_match f v w
                      | None, None => True
                      | _, _ => False
                      end) ∧
  (∀ e e' l, f !! e = Some l → f !! e' = Some l → e = e').
End src.
