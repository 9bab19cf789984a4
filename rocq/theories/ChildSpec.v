(** Specification of parent/child lists. *)
From Verif Require Export MapSpec.

Inductive chop := ChAdd (p c : nat) | ChRemove (p c : nat) | ChDetach (c : nat).
(** [ch_kids]: children of each parent, latest first; [ch_marked]: entities that
    carry child information (still true after removal from the parent). *)
Record chstate := ChS { ch_kids : gmap nat (list nat); ch_marked : gset nat }.
Definition kids (s : chstate) (p : nat) : list nat := default [] (ch_kids s !! p).

Definition chspec (nodes : gset nat) (s : chstate) (o : chop) : option chstate :=
  match o with
  | ChAdd p c =>
    if decide (p ∈ nodes ∧ c ∉ ch_marked s)
    then Some (ChS (<[p := c :: kids s p]> (ch_kids s)) ({[c]} ∪ ch_marked s)) else None
  | ChRemove p c =>
    if decide (is_Some (ch_kids s !! p) ∧ c ∈ ch_marked s)
    then Some (ChS (<[p := filter (λ x, x ≠ c) (kids s p)]> (ch_kids s)) (ch_marked s)) else None
  | ChDetach c =>
    if decide (map_Forall (λ _ l, c ∉ l) (ch_kids s))
    then Some (ChS (ch_kids s) (ch_marked s ∖ {[c]})) else None
  end.
