(** Specification vocabulary for the contact points of a manifold. *)
From Verif Require Import Outcome PointModel.

Section spec.
Context {V X : Type}.
Notation preg := (preg V X).
Notation rpoint := (rpoint V X).
(** identifier, geometry, lifetime *)
Notation entry := (nat * (rpoint * nat))%type.

(** What a user sees: the points of a manifold, following the list. *)
Fixpoint walk (fuel : nat) (cps : gmap nat (cpoint V X)) (h : option nat) : res (list entry) :=
  match h with
  | None => Ok []
  | Some x =>
    match fuel with
    | 0 => NoFuel
    | S fuel => c ← opt_res (cps !! x); l ← walk fuel cps (cp_next c); Ok ((x, (cp_pt c, cp_life c)) :: l)
    end
  end.
Definition contact_list (r : preg) (m : nat) : res (list entry) :=
  '(_, h) ← opt_res (pr_man r !! m); walk (size (pr_cp r)) (pr_cp r) h.

(** Every manifold owns a proper list of at most four points, and every point
    is in the list of a live manifold. *)
Definition well_formed (r : preg) : Prop :=
  (∀ m n h, pr_man r !! m = Some (n, h) →
     ∃ l, contact_list r m = Ok l ∧ length l = n ∧ n ≤ 4 ∧ NoDup l.*1 ∧
       ∀ x, x ∈ l.*1 → ∃ c, pr_cp r !! x = Some c ∧ cp_parent c = m) ∧
  (∀ x c, pr_cp r !! x = Some c → ∃ l, contact_list r (cp_parent c) = Ok l ∧ x ∈ l.*1).

(** One collision update: [src] tells which result point each contact point
    took its geometry from in this update. *)
Definition updated (sep : rpoint → bool) (result : list rpoint) (old new : list entry) : Prop :=
  ∃ (created kept : list entry) (src : nat → option nat) (dropped : list nat),
    new = created ++ kept ∧
    kept.*1 `sublist_of` old.*1 ∧
    (* new points start at lifetime zero and come from the result *)
    (∀ x p k, (x, (p, k)) ∈ created → k = 0 ∧ x ∉ old.*1 ∧ is_Some (src x)) ∧
    (* kept points age by one; without a source their geometry is unchanged *)
    (∀ x p k, (x, (p, k)) ∈ kept → ∃ p0 k0, (x, (p0, k0)) ∈ old ∧ k = S k0 ∧ (src x = None → p = p0)) ∧
    (∀ x p k j, (x, (p, k)) ∈ new → src x = Some j → result !! j = Some p) ∧
    (* no result point is used twice *)
    (∀ x y j, x ∈ new.*1 → y ∈ new.*1 → src x = Some j → src y = Some j → x = y) ∧
    (* a point disappears when it separated, or in exchange for a new one *)
    (∀ x p k, (x, (p, k)) ∈ old → x ∈ new.*1 ∨ sep p = true ∨ x ∈ dropped) ∧
    length dropped ≤ length created ∧
    (* a separated point stays only when it is refreshed *)
    (∀ x p k, (x, (p, k)) ∈ old → x ∈ new.*1 → sep p = true → is_Some (src x)) ∧
    (* a colliding pair has a contact point *)
    (result ≠ [] → new ≠ []).
End spec.

(** States of the registry reached by the narrowphase and by making, clearing
    and destroying manifolds.  A collision result has at most four points with
    a proper normal. *)
Section reach.
Context {V Sc X : Type} (G : geo V Sc) (nz : rpoint V X → bool) (dflt : rpoint V X).
Definition legal_result (result : list (rpoint V X)) : Prop :=
  length result ≤ 4 ∧ Forall (λ p, nz p = true) result.
Inductive preach : preg V X → Prop :=
| pr_init f : preach (PReg ∅ ∅ f)
| pr_make r : preach r → preach (make_manifold r)
| pr_clear r m r' : preach r → clear_contact_manifold r m = Ok r' → preach r'
| pr_destroy r m r' : preach r → destroy_manifold r m = Ok r' → preach r'
| pr_update r env m result s' : preach r → legal_result result →
    process G nz dflt false env m result (PSt r [] []) = Ok s' → preach (ps_reg s').
End reach.
