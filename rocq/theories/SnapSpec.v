(** What a snapshot means, independently of pools and indices. *)
From Verif Require Import Outcome SnapModel S11nSpec.
Local Open Scope nat_scope.

Notation registry := (N → N → option val) (only parsing).
(** A component value that can travel. *)
Definition travels klt (t : ty) (v : val) : Prop := good t ∧ has_ty klt t v ∧ fits v.
(** The content of a component after the remote value [v] arrived. *)
Definition arrived (m : mode) (t : ty) (merged : val → val) (mapped : val) (cur : option val) : option val :=
  match cur with
  | Some x => if is_empty t then Some x else Some (merged x)
  | None => match m with Replace => None | Import => Some (if is_empty t then VUnit else mapped) end
  end.
Definition reqs_of (c : N) (reqs : list (N * N)) : list N := fst <$> filter (λ q, q.2 = c) reqs.
