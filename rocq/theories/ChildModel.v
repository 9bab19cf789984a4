(** Model of parent/child entity lists: add_child and remove_child
    (src/edyn/replication/register_external.cpp:55-83), include/edyn/comp/child_list.hpp
    and the traversal of server_snapshot_exporter.hpp:244-257. *)
From Verif Require Import Outcome.

Record creg := CReg {
  c_node : gset nat;                               (* entities with graph_node *)
  c_par : gmap nat (option nat);                   (* parent_comp::child *)
  c_list : gmap nat (option nat * option nat)      (* child_list::parent, next *)
}.

(** register_external.cpp:55-60.  Emplacing a second child_list is UB (EnTT). *)
Definition add_child (r : creg) (p c : nat) : res creg :=
  _ ← assert_ (bool_decide (p ∈ c_node r));
  let h := default None (c_par r !! p) in
  _ ← require_ (bool_decide (c_list r !! c = None));
  Ok (CReg (c_node r) (<[p := Some c]> (c_par r)) (<[c := (Some p, h)]> (c_list r))).

(** register_external.cpp:70-81: the loop looking for the predecessor. *)
Fixpoint unlink_loop (fuel : nat) (l : gmap nat (option nat * option nat)) (c : nat) (next curr : option nat)
  : res (gmap nat (option nat * option nat)) :=
  match curr with
  | None => Ok l
  | Some x =>
    match fuel with
    | 0 => NoFuel
    | S fuel =>
      e ← opt_res (l !! x);
      if decide (e.2 = Some c) then Ok (<[x := (e.1, next)]> l)
      else unlink_loop fuel l c next e.2
    end
  end.
(** register_external.cpp:62-83.  The child keeps its child_list component. *)
Definition remove_child (r : creg) (p c : nat) : res creg :=
  h ← opt_res (c_par r !! p);
  e ← opt_res (c_list r !! c);
  if decide (h = Some c) then Ok (CReg (c_node r) (<[p := e.2]> (c_par r)) (c_list r))
  else
    l ← unlink_loop (size (c_list r)) (c_list r) c e.2 h;
    Ok (CReg (c_node r) (c_par r) l).

(** registry.remove<child_list>(c), done by the user or by destroying [c]. *)
Definition detach (r : creg) (c : nat) : creg := CReg (c_node r) (c_par r) (delete c (c_list r)).

(** server_snapshot_exporter.hpp:244-257: the children visited from a parent. *)
Fixpoint child_walk (fuel : nat) (l : gmap nat (option nat * option nat)) (curr : option nat) : res (list nat) :=
  match curr with
  | None => Ok []
  | Some x =>
    match fuel with
    | 0 => NoFuel
    | S fuel =>
      e ← opt_res (l !! x);
      r ← child_walk fuel l e.2;
      Ok (x :: r)
    end
  end.
Definition children (r : creg) (p : nat) : res (list nat) :=
  match c_par r !! p with
  | None => Ok []
  | Some h => child_walk (size (c_list r)) (c_list r) h
  end.
