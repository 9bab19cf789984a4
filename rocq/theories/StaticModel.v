(** Model of static_tree: include/edyn/collision/static_tree.hpp.

    Nodes reuse the record of TreeModel; only [tn_c1], [tn_c2] and [tn_box] are
    members of static_tree::tree_node (the other two stay at fixed values and
    are never read), so that query_tree.hpp's [traverse_tree] is shared.
    [report_leaf] is modelled by recording its calls: node index and the ids
    passed.  A range of the [ids] vector is the list of its elements; recursive
    calls work on disjoint ranges.  [std::sort] is a parameter [srt]. *)
From Verif Require Import Outcome TreeModel BoxModel.

Section static.
Context {R : Type} (leb ltb : R → R → bool) (add sub mul : R → R → R) (half : R).
Context (srt : (nat → nat → bool) → list nat → list nat) (box0 : aabb R).
Notation box := (aabb R).

(** vector3.hpp:298-312 *)
Definition max_index (v : vec R) : nat :=
  let '(mv, mi) := if ltb (vx v) (vy v) then (vy v, 1) else (vx v, 0) in
  if ltb mv (vz v) then 2 else mi.
(** vector3 operator[] (vector3.hpp:24-27), for indices 0..2 *)
Definition vcomp (v : vec R) (i : nat) : R :=
  match i with 0 => vx v | 1 => vy v | _ => vz v end.
Definition center (b : box) : vec R := bx_center add mul half b.

(** The key compared by the lambda and the loop, static_tree.hpp:24-39.  The
    element boxes are read through [aabb_begin + id]; ids come from iota. *)
Definition key (bs : list box) (axis i : nat) : R :=
  vcomp (center (default box0 (bs !! i))) axis.

(** First position whose key is greater than [split], static_tree.hpp:32-39. *)
Fixpoint first_above (f : nat → R) (split : R) (ids : list nat) : option nat :=
  match ids with
  | [] => None
  | i :: ids => if ltb split (f i) then Some 0 else S <$> first_above f split ids
  end.

(** aabb_set_partition, static_tree.hpp:17-42: the reordered range and the
    distance of the returned iterator from its begin. *)
Definition partition (bs : list box) (ids : list nat) (set_box : box) : list nat * nat :=
  let axis := max_index (vsub sub (bmax set_box) (bmin set_box)) in
  let split := vcomp (center set_box) axis in
  let ids := srt (λ a b, ltb (key bs axis a) (key bs axis b)) ids in
  match first_above (key bs axis) split ids with
  | Some k => (ids, k)
  | None => (ids, length ids / 2)
  end.

(** static_tree.hpp:103-105: an emplaced node has unspecified members. *)
Definition snew : tnode box := TN None None None box0 0%Z.
Definition report : Type := nat * list nat.

(** static_tree.hpp:97-138, recurse_build. [*ids_begin] of an empty range is UB. *)
Fixpoint recurse_build (fuel : nat) (bs : list box) (max : nat)
    (ns : list (tnode box)) (ids : list nat) (idx : nat) : res (list (tnode box) * list report) :=
  match fuel with
  | 0 => NoFuel
  | S fuel =>
    _ ← assert_ (bool_decide (bs ≠ []));
    match ids with
    | [] => UB
    | i0 :: rest =>
      b0 ← opt_res (bs !! i0);
      set_box ← foldl (λ acc i, a ← acc; b ← opt_res (bs !! i); Ok (bx_enclose ltb a b)) (Ok b0) rest;
      ns ← nupd ns (Some idx) (TreeModel.set_box set_box);
      if decide (length ids ≤ max) then
        ns ← nupd ns (Some idx) (set_c1 None);
        Ok (ns, [(idx, ids)])
      else
        let '(ids, mid) := partition bs ids set_box in
        let c1 := length ns in
        let c2 := S (length ns) in
        ns ← nupd ns (Some idx) (set_c1 (Some c1));
        ns ← nupd ns (Some idx) (set_c2 (Some c2));
        let ns := ns ++ [snew; snew] in
        '(ns, r1) ← recurse_build fuel bs max ns (take mid ids) c1;
        '(ns, r2) ← recurse_build fuel bs max ns (drop mid ids) c2;
        Ok (ns, r1 ++ r2)
    end
  end.

(** static_tree.hpp:80-95, build on a new tree.  The fuel is the number of
    elements plus one: C10_build_loses_nothing shows it suffices. *)
Definition build (bs : list box) (max : nat) : res (list (tnode box) * list report) :=
  _ ← assert_ (bool_decide (bs ≠ []));
  recurse_build (S (length bs)) bs max [snew] (seq 0 (length bs)) 0.

(** static_tree.hpp:150-160: the root index is always 0, also when empty. *)
Definition squery (ns : list (tnode box)) (test : box → bool) : res (list nat) :=
  traverse_loop ns test (S (2 * length ns)) [Some 0].
End static.
