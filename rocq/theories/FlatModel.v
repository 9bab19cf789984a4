(** Model of include/edyn/core/flat_nested_array.hpp. *)
From Verif Require Import Outcome.

(** flat_nested_array.hpp:90-91 *)
Record flat (T : Type) := Flat { fa_data : list T; fa_starts : list nat }.
Arguments Flat {_} _ _.
Arguments fa_data {_} _.
Arguments fa_starts {_} _.
Section flat.
Context {T : Type}.
Definition fa_empty : flat T := Flat [] [].
(** flat_nested_array.hpp:44-46 *)
Definition push_array (f : flat T) : flat T := Flat (fa_data f) (fa_starts f ++ [length (fa_data f)]).
(** flat_nested_array.hpp:51-53 *)
Definition push_back (f : flat T) (x : T) : flat T := Flat (fa_data f ++ [x]) (fa_starts f).
(** flat_nested_array.hpp:58-60 *)
Definition fa_size (f : flat T) : nat := length (fa_starts f).
(** flat_nested_array.hpp:79-86: start and size of the nested array.  The
    subtraction is on size_t; a negative result is recorded as [UB]. *)
Definition fa_inner (f : flat T) (i : nat) : res (nat * nat) :=
  _ ← assert_ (bool_decide (i < length (fa_starts f)));
  start ← opt_res (fa_starts f !! i);
  stop ← (if decide (S i < length (fa_starts f)) then opt_res (fa_starts f !! S i) else Ok (length (fa_data f)));
  _ ← require_ (bool_decide (start ≤ stop));
  Ok (start, stop - start).
(** flat_nested_array.hpp:25-28: [array[i][j]] *)
Definition fa_get (f : flat T) (i j : nat) : res T :=
  '(start, size) ← fa_inner f i;
  _ ← assert_ (bool_decide (j < size));
  opt_res (fa_data f !! (start + j)).
End flat.
