(** Model of collision exclusion and filtering:
    src/edyn/util/exclude_collision.cpp, include/edyn/comp/collision_exclusion.hpp,
    src/edyn/collision/should_collide.cpp, include/edyn/comp/collision_filter.hpp. *)
From Verif Require Import Outcome.

(** collision_exclusion.hpp:19; a literal constant of the code. *)
Definition max_exclusions : nat := 16.
(** collision_exclusion::entity, a fixed array; [None] is entt::null. *)
Notation exarr := (list (option nat)) (only parsing).
Definition ex_new : exarr := replicate max_exclusions None.

(** The components read and written: rigidbody_tag, collision_exclusion and
    collision_filter (group, mask). *)
Record exreg := ExReg {
  x_body : gset nat;
  x_ex : gmap nat exarr;
  x_filter : gmap nat (N * N)
}.
Definition x_set (r : exreg) (a : nat) (arr : exarr) : exreg :=
  ExReg (x_body r) (<[a := arr]> (x_ex r)) (x_filter r).

(** collision_exclusion.hpp:23-31, num_entities *)
Fixpoint num_entities (arr : exarr) : nat :=
  match arr with
  | Some _ :: arr => S (num_entities arr)
  | _ => 0
  end.

(** exclude_collision.cpp:19-23: the search loop over the first [size] slots. *)
Fixpoint ex_mem (arr : exarr) (b size : nat) : bool :=
  match size, arr with
  | S size, x :: arr => bool_decide (x = Some b) || ex_mem arr b size
  | _, _ => false
  end.

(** exclude_collision.cpp:9-28 *)
Definition exclude_one_way (r : exreg) (a b : nat) : res exreg :=
  _ ← assert_ (bool_decide (a ∈ x_body r));
  let arr := default ex_new (x_ex r !! a) in
  let r := x_set r a arr in
  let size := num_entities arr in
  if ex_mem arr b size then Ok r
  else
    _ ← assert_ (bool_decide (size < max_exclusions));
    Ok (x_set r a (<[size := Some b]> arr)).
(** exclude_collision.cpp:30-33 *)
Definition exclude_collision (r : exreg) (a b : nat) : res exreg :=
  r ← exclude_one_way r a b; exclude_one_way r b a.

(** exclude_collision.cpp:43-50: the loop from [size] down. *)
Fixpoint find_last (arr : exarr) (b i : nat) : option nat :=
  match i with
  | 0 => None
  | S k => if decide (arr !! k = Some (Some b)) then Some k else find_last arr b k
  end.
Definition ex_remove (arr : exarr) (b : nat) : exarr :=
  let size := num_entities arr in
  match find_last arr b size with
  | None => arr
  | Some k => <[size - 1 := None]> (<[k := default None (arr !! (size - 1))]> arr)
  end.
(** exclude_collision.cpp:39-52; patching a missing component is UB in EnTT. *)
Definition remove_one_way (r : exreg) (a b : nat) : res exreg :=
  arr ← opt_res (x_ex r !! a);
  Ok (x_set r a (ex_remove arr b)).
(** exclude_collision.cpp:54-57 *)
Definition remove_exclusion (r : exreg) (a b : nat) : res exreg :=
  r ← remove_one_way r a b; remove_one_way r b a.

(** exclude_collision.cpp:63-66.  [exclude] is a reference: slot [i] is read
    from the current component.  A null slot makes patch UB. *)
Fixpoint clear_loop (r : exreg) (a i n : nat) : res exreg :=
  match n with
  | 0 => Ok r
  | S n =>
    arr ← opt_res (x_ex r !! a);
    slot ← opt_res (arr !! i);
    other ← opt_res slot;
    r ← remove_one_way r other a;
    clear_loop r a (S i) n
  end.
(** exclude_collision.cpp:59-69 *)
Definition clear_exclusion (r : exreg) (a : nat) : res exreg :=
  arr ← opt_res (x_ex r !! a);
  r ← clear_loop r a 0 (num_entities arr);
  Ok (ExReg (x_body r) (delete a (x_ex r)) (x_filter r)).

(** should_collide.cpp:11-21 *)
Definition should_exclude (r : exreg) (a b : nat) : bool :=
  match x_ex r !! a with
  | Some arr => ex_mem arr b (num_entities arr)
  | None => false
  end.

(** collision_filter.hpp:8: all 64 bits set. *)
Definition all_groups : N := N.ones 64.
(** should_collide.cpp:23-58 *)
Definition should_collide (r : exreg) (a b : nat) : bool :=
  if decide (a = b) then false
  else if (match x_filter r !! a, x_filter r !! b with
           | Some (g0, m0), Some (g1, m1) => (N.land g0 m1 =? 0)%N || (N.land g1 m0 =? 0)%N
           | Some (g, m), None | None, Some (g, m) =>
             (N.land g all_groups =? 0)%N || (N.land m all_groups =? 0)%N
           | None, None => false
           end) then false
  else negb (should_exclude r a b || should_exclude r b a).
