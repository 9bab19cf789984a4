(** What the client knows, and what it should know. *)
From Verif Require Import AoiModel.
From stdpp Require Import gmap.
Local Open Scope nat_scope.

(** Entities and assets the client has. *)
Record known := Known { k_ents : gset nat; k_assets : gset nat }.
Definition hear (k : known) (p : oi_packet) : known :=
  match p with
  | ExitedAssets l => Known (k_ents k) (k_assets k ∖ list_to_set l)
  | Destroyed l => Known (k_ents k ∖ list_to_set l) (k_assets k)
  | EnteredAssets l => Known (k_ents k) (k_assets k ∪ list_to_set l)
  | Created l => Known (k_ents k ∪ list_to_set l) (k_assets k)
  end.
(** Server and client together; the client deletes by itself what it asks to destroy. *)
Fixpoint run_rounds (rs : list round) (s : aoi) (k : known) : res (aoi * known) :=
  match rs with
  | [] => Ok (s, k)
  | r :: rs =>
    '(s, ps) ← do_round r s;
    run_rounds rs s (foldl hear (Known (k_ents k ∖ list_to_set (r_removed r)) (k_assets k)) ps)
  end.

Definition without (l removed : list nat) : list nat := filter (λ x, x ∉ removed) l.
(** Entities inside after a round that started with [prev]. *)
Definition inside (prev : list nat) (r : round) : list nat := default (without prev (r_removed r)) (last (r_updates r)).
Fixpoint inside_all (prev : list nat) (rs : list round) : list nat :=
  match rs with [] => prev | r :: rs => inside_all (inside prev r) rs end.
(** An entity that shows up stays until it is processed. *)
Definition stays (cs : list (list nat)) : Prop :=
  ∀ i j a b c e, cs !! i = Some a → cs !! S i = Some b → cs !! j = Some c → i < j → e ∉ a → e ∈ b → e ∈ c.
(** The asset of an entity does not change and entities of assets are not destroyed one
    by one. *)
Definition round_ok (asset : nat → option nat) (prev : list nat) (r : round) : Prop :=
  (∀ e, r_asset r e = asset e) ∧ Forall (λ e, asset e = None) (r_removed r) ∧
  Forall (λ c, NoDup c ∧ (N.of_nat (length c) < 4294967296)%N) (r_updates r) ∧
  stays (without prev (r_removed r) :: r_updates r).
Fixpoint rounds_ok (asset : nat → option nat) (prev : list nat) (rs : list round) : Prop :=
  match rs with [] => True | r :: rs => round_ok asset prev r ∧ rounds_ok asset (inside prev r) rs end.
Definition members (asset : nat → option nat) (a : nat) (l : list nat) : list nat := filter (λ e, asset e = Some a) l.
(** The client has what is inside: every entity that is not part of an asset, and every
    asset with an entity inside. *)
Definition knows (asset : nat → option nat) (l : list nat) (k : known) : Prop :=
  (∀ e, e ∈ k_ents k ↔ e ∈ l ∧ asset e = None) ∧
  (∀ a, a ∈ k_assets k ↔ ∃ e, e ∈ l ∧ asset e = Some a).
