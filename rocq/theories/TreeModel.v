(** Model of dynamic_tree: include/edyn/collision/dynamic_tree.hpp,
    src/edyn/collision/dynamic_tree.cpp, include/edyn/collision/tree_node.hpp
    and include/edyn/collision/query_tree.hpp.

    Boxes and scalars are parameters: [box] with [enclose] (enclosing_aabb),
    [inset] ([aabb.inset(aabb_inset)]), [contains] ([AABB::contains(AABB)]),
    [area], and the scalar operations used by the cost comparison.  BoxModel.v
    gives the AABB functions.  Node ids are [nat], [null_tree_node_id] and
    [entt::null] are [None].  An access [m_nodes[id]] out of range is [UB]. *)
From Verif Require Import Outcome.

Section tree.
Context {box scalar : Type}.
Context (enclose : box → box → box) (inset : box → box) (contains : box → box → bool).
Context (area : box → scalar) (s_add s_sub s_mul : scalar → scalar → scalar)
        (s_two : scalar) (s_lt : scalar → scalar → bool) (box0 : box).

(** tree_node.hpp:13-35.  [tn_link] is the union parent/next and [tn_c2] the
    union child2/entity, as in the struct: writing one overwrites the other. *)
Record tnode := TN {
  tn_link : option nat;
  tn_c1 : option nat;
  tn_c2 : option nat;
  tn_box : box;
  tn_h : Z }.

(** tree_node.hpp:32-34 *)
Definition tleaf (n : tnode) : bool := bool_decide (tn_c1 n = None).

(** dynamic_tree.hpp:102-106 *)
Record tree := Tree {
  t_root : option nat;
  t_nodes : list tnode;
  t_free : option nat }.

(** dynamic_tree.cpp:6-9 *)
Definition t_empty : tree := Tree None [] None.

(** [m_nodes[id]], read. *)
Definition nget (ns : list tnode) (i : option nat) : res tnode :=
  match i with
  | None => UB
  | Some i => match ns !! i with Some n => Ok n | None => UB end
  end.
(** Assignment to one member of [m_nodes[id]]. *)
Definition nupd (ns : list tnode) (i : option nat) (f : tnode → tnode) : res (list tnode) :=
  match i with
  | None => UB
  | Some i => if decide (i < length ns) then Ok (alter f i ns) else UB
  end.

Definition set_link (p : option nat) (n : tnode) : tnode := TN p (tn_c1 n) (tn_c2 n) (tn_box n) (tn_h n).
Definition set_c1 (c : option nat) (n : tnode) : tnode := TN (tn_link n) c (tn_c2 n) (tn_box n) (tn_h n).
Definition set_c2 (c : option nat) (n : tnode) : tnode := TN (tn_link n) (tn_c1 n) c (tn_box n) (tn_h n).
Definition set_box (b : box) (n : tnode) : tnode := TN (tn_link n) (tn_c1 n) (tn_c2 n) b (tn_h n).
Definition set_h (h : Z) (n : tnode) : tnode := TN (tn_link n) (tn_c1 n) (tn_c2 n) (tn_box n) h.

(** dynamic_tree.cpp:11-32.  A new slot has an unspecified box ([box0]), a
    recycled slot keeps its old one. *)
Definition allocate (t : tree) : res (tree * nat) :=
  match t_free t with
  | None => Ok (Tree (t_root t) (t_nodes t ++ [TN None None None box0 0%Z]) None, length (t_nodes t))
  | Some id =>
    n ← nget (t_nodes t) (Some id);
    ns ← nupd (t_nodes t) (Some id) (λ n, TN None None None (tn_box n) 0%Z);
    Ok (Tree (t_root t) ns (tn_link n), id)
  end.

(** dynamic_tree.cpp:34-39.  [child1] is not reset. *)
Definition tfree (t : tree) (id : nat) : res tree :=
  ns ← nupd (t_nodes t) (Some id) (λ n, TN (t_free t) (tn_c1 n) None (tn_box n) (-1)%Z);
  Ok (Tree (t_root t) ns (Some id)).

(** dynamic_tree.cpp:80-123 *)
Fixpoint best_loop (ns : list tnode) (fuel : nat) (id : option nat) (b : box) : res nat :=
  n ← nget ns id;
  if tleaf n then opt_res id
  else
    match fuel with
    | 0 => NoFuel
    | S fuel =>
      let enclosing_area := area (enclose (tn_box n) b) in
      let cost := s_mul s_two enclosing_area in
      let inherit := s_mul s_two (s_sub enclosing_area (area (tn_box n))) in
      n1 ← nget ns (tn_c1 n);
      let ea1 := area (enclose (tn_box n1) b) in
      let cost1 := if tleaf n1 then s_add ea1 inherit
                   else s_add (s_sub ea1 (area (tn_box n1))) inherit in
      n2 ← nget ns (tn_c2 n);
      let ea2 := area (enclose (tn_box n2) b) in
      let cost2 := if tleaf n2 then s_add ea2 inherit
                   else s_add (s_sub ea2 (area (tn_box n2))) inherit in
      if s_lt cost cost1 && s_lt cost cost2 then opt_res id
      else best_loop ns fuel (if s_lt cost1 cost2 then tn_c1 n else tn_c2 n) b
    end.
Definition best (t : tree) (b : box) : res nat :=
  best_loop (t_nodes t) (length (t_nodes t)) (t_root t) b.

(** Writing [to] where the parent [p] of a node pointed to [from]
    (dynamic_tree.cpp:252-263, 301-312); the assertion is on the else branch. *)
Definition replace_child (t : tree) (p : option nat) (from to : nat) : res tree :=
  match p with
  | None => Ok (Tree (Some to) (t_nodes t) (t_free t))
  | Some p =>
    pn ← nget (t_nodes t) (Some p);
    if decide (tn_c1 pn = Some from) then
      ns ← nupd (t_nodes t) (Some p) (set_c1 (Some to));
      Ok (Tree (t_root t) ns (t_free t))
    else
      _ ← assert_ (bool_decide (tn_c2 pn = Some from));
      ns ← nupd (t_nodes t) (Some p) (set_c2 (Some to));
      Ok (Tree (t_root t) ns (t_free t))
  end.

(** dynamic_tree.cpp:240-287, C is rotated up. *)
Definition rotate_c (t : tree) (a b c : nat) (nA nB nC : tnode) : res (tree * nat) :=
  let ns := t_nodes t in
  f ← opt_res (tn_c1 nC); g ← opt_res (tn_c2 nC);
  nF ← nget ns (Some f); nG ← nget ns (Some g);
  ns ← nupd ns (Some c) (set_c1 (Some a));
  ns ← nupd ns (Some c) (set_link (tn_link nA));
  ns ← nupd ns (Some a) (set_link (Some c));
  t ← replace_child (Tree (t_root t) ns (t_free t)) (tn_link nA) a c;
  let ns := t_nodes t in
  let '(up, down, nUp, nDown) := if decide (tn_h nF > tn_h nG)%Z then (f, g, nF, nG) else (g, f, nG, nF) in
  ns ← nupd ns (Some c) (set_c2 (Some up));
  ns ← nupd ns (Some a) (set_c2 (Some down));
  ns ← nupd ns (Some down) (set_link (Some a));
  let boxA := enclose (tn_box nB) (tn_box nDown) in
  let hA := (Z.max (tn_h nB) (tn_h nDown) + 1)%Z in
  ns ← nupd ns (Some a) (set_box boxA);
  ns ← nupd ns (Some c) (set_box (enclose boxA (tn_box nUp)));
  ns ← nupd ns (Some a) (set_h hA);
  ns ← nupd ns (Some c) (set_h (Z.max hA (tn_h nUp) + 1)%Z);
  Ok (Tree (t_root t) ns (t_free t), c).

(** dynamic_tree.cpp:289-336, B is rotated up. *)
Definition rotate_b (t : tree) (a b c : nat) (nA nB nC : tnode) : res (tree * nat) :=
  let ns := t_nodes t in
  d ← opt_res (tn_c1 nB); e ← opt_res (tn_c2 nB);
  nD ← nget ns (Some d); nE ← nget ns (Some e);
  ns ← nupd ns (Some b) (set_c1 (Some a));
  ns ← nupd ns (Some b) (set_link (tn_link nA));
  ns ← nupd ns (Some a) (set_link (Some b));
  t ← replace_child (Tree (t_root t) ns (t_free t)) (tn_link nA) a b;
  let ns := t_nodes t in
  let '(up, down, nUp, nDown) := if decide (tn_h nD > tn_h nE)%Z then (d, e, nD, nE) else (e, d, nE, nD) in
  ns ← nupd ns (Some b) (set_c2 (Some up));
  ns ← nupd ns (Some a) (set_c1 (Some down));
  ns ← nupd ns (Some down) (set_link (Some a));
  let boxA := enclose (tn_box nC) (tn_box nDown) in
  let hA := (Z.max (tn_h nC) (tn_h nDown) + 1)%Z in
  ns ← nupd ns (Some a) (set_box boxA);
  ns ← nupd ns (Some b) (set_box (enclose boxA (tn_box nUp)));
  ns ← nupd ns (Some a) (set_h hA);
  ns ← nupd ns (Some b) (set_h (Z.max hA (tn_h nUp) + 1)%Z);
  Ok (Tree (t_root t) ns (t_free t), b).

(** dynamic_tree.cpp:224-339 *)
Definition balance (t : tree) (a : nat) : res (tree * nat) :=
  nA ← nget (t_nodes t) (Some a);
  if tleaf nA || bool_decide (tn_h nA < 2)%Z then Ok (t, a)
  else
    b ← opt_res (tn_c1 nA); c ← opt_res (tn_c2 nA);
    nB ← nget (t_nodes t) (Some b); nC ← nget (t_nodes t) (Some c);
    let bal := (tn_h nC - tn_h nB)%Z in
    if decide (bal > 1)%Z then rotate_c t a b c nA nB nC
    else if decide (bal < -1)%Z then rotate_b t a b c nA nB nC
    else Ok (t, a).

(** dynamic_tree.cpp:212-222 *)
Fixpoint refit (fuel : nat) (t : tree) (id : option nat) : res tree :=
  match id with
  | None => Ok t
  | Some id =>
    match fuel with
    | 0 => NoFuel
    | S fuel =>
      '(t, id) ← balance t id;
      n ← nget (t_nodes t) (Some id);
      _ ← assert_ (bool_decide (is_Some (tn_c1 n)));
      _ ← assert_ (bool_decide (is_Some (tn_c2 n)));
      n1 ← nget (t_nodes t) (tn_c1 n);
      n2 ← nget (t_nodes t) (tn_c2 n);
      ns ← nupd (t_nodes t) (Some id) (set_box (enclose (tn_box n1) (tn_box n2)));
      ns ← nupd ns (Some id) (set_h (Z.max (tn_h n1) (tn_h n2) + 1)%Z);
      refit fuel (Tree (t_root t) ns (t_free t)) (tn_link n)
    end
  end.

(** dynamic_tree.cpp:125-174 *)
Definition insert (t : tree) (leaf : nat) : res tree :=
  match t_root t with
  | None =>
    ns ← nupd (t_nodes t) (Some leaf) (set_link None);
    Ok (Tree (Some leaf) ns (t_free t))
  | Some _ =>
    ln ← nget (t_nodes t) (Some leaf);
    sib ← best t (tn_box ln);
    sn ← nget (t_nodes t) (Some sib);
    let old := tn_link sn in
    '(t, np) ← allocate t;
    ns ← nupd (t_nodes t) (Some np) (set_link old);
    sn ← nget ns (Some sib);
    ns ← nupd ns (Some np) (set_box (enclose (tn_box sn) (tn_box ln)));
    ns ← nupd ns (Some np) (set_h (tn_h sn + 1)%Z);
    ns ← match old with
         | Some old =>
           on ← nget ns (Some old);
           if decide (tn_c1 on = Some sib) then nupd ns (Some old) (set_c1 (Some np))
           else nupd ns (Some old) (set_c2 (Some np))
         | None => Ok ns
         end;
    ns ← nupd ns (Some np) (set_c1 (Some sib));
    ns ← nupd ns (Some np) (set_c2 (Some leaf));
    ns ← nupd ns (Some sib) (set_link (Some np));
    ns ← nupd ns (Some leaf) (set_link (Some np));
    let root := match old with Some _ => t_root t | None => Some np end in
    ln ← nget ns (Some leaf);
    refit (length ns) (Tree root ns (t_free t)) (tn_link ln)
  end.

(** dynamic_tree.cpp:176-210 *)
Definition remove (t : tree) (leaf : nat) : res tree :=
  if decide (t_root t = Some leaf) then Ok (Tree None (t_nodes t) (t_free t))
  else
    n ← nget (t_nodes t) (Some leaf);
    parent ← opt_res (tn_link n);
    pn ← nget (t_nodes t) (Some parent);
    let osib := if decide (tn_c1 pn = Some leaf) then tn_c2 pn else tn_c1 pn in
    match osib with
    | None => AssertFail
    | Some sib =>
      if decide (t_root t = Some parent) then
        ns ← nupd (t_nodes t) (Some sib) (set_link None);
        tfree (Tree (Some sib) ns (t_free t)) parent
      else
        match tn_link pn with
        | None => AssertFail
        | Some gp =>
          gn ← nget (t_nodes t) (Some gp);
          ns ← (if decide (tn_c1 gn = Some parent) then nupd (t_nodes t) (Some gp) (set_c1 (Some sib))
                else nupd (t_nodes t) (Some gp) (set_c2 (Some sib)));
          ns ← nupd ns (Some sib) (set_link (Some gp));
          t ← tfree (Tree (t_root t) ns (t_free t)) parent;
          refit (length (t_nodes t)) t (Some gp)
        end
    end.

(** dynamic_tree.cpp:41-50 *)
Definition create (t : tree) (b : box) (ent : option nat) : res (tree * nat) :=
  '(t, id) ← allocate t;
  ns ← nupd (t_nodes t) (Some id) (set_c2 ent);
  ns ← nupd ns (Some id) (set_box (inset b));
  t ← insert (Tree (t_root t) ns (t_free t)) id;
  Ok (t, id).

(** dynamic_tree.cpp:52-56 *)
Definition destroy (t : tree) (id : nat) : res tree :=
  n ← nget (t_nodes t) (Some id);
  _ ← assert_ (tleaf n);
  t ← remove t id;
  tfree t id.

(** dynamic_tree.cpp:58-78 *)
Definition move (t : tree) (id : nat) (b : box) : res (tree * bool) :=
  n ← nget (t_nodes t) (Some id);
  _ ← assert_ (tleaf n);
  if contains (tn_box n) b then Ok (t, false)
  else
    t ← remove t id;
    ns ← nupd (t_nodes t) (Some id) (set_box (inset b));
    t ← insert (Tree (t_root t) ns (t_free t)) id;
    Ok (t, true).

(** dynamic_tree.cpp:345-361 *)
Definition tclear (t : tree) : tree :=
  match t_nodes t with
  | [] => Tree None [] None
  | _ =>
    Tree None
      (imap (λ k n, TN (if decide (S k = length (t_nodes t)) then None else Some (S k))
                       (tn_c1 n) None (tn_box n) (-1)%Z) (t_nodes t))
      (Some 0)
  end.

(** query_tree.hpp:9-34, [traverse_tree]: ids passed to [visit_func], in order.
    The stack is a list with its top first. *)
Fixpoint traverse_loop (ns : list tnode) (test : box → bool) (fuel : nat) (stack : list (option nat))
  : res (list nat) :=
  match stack with
  | [] => Ok []
  | oid :: stack =>
    match fuel with
    | 0 => NoFuel
    | S fuel =>
      match oid with
      | None => traverse_loop ns test fuel stack
      | Some id =>
        n ← nget ns (Some id);
        if test (tn_box n) then
          if tleaf n then r ← traverse_loop ns test fuel stack; Ok (id :: r)
          else traverse_loop ns test fuel (tn_c2 n :: tn_c1 n :: stack)
        else traverse_loop ns test fuel stack
      end
    end
  end.

(** dynamic_tree.hpp:108-116 and query_tree.hpp:36-50: [query] tests
    [intersect(node.aabb, aabb)], [raycast] the segment against the box. *)
Definition traverse_tree (t : tree) (test : box → bool) : res (list nat) :=
  traverse_loop (t_nodes t) test (S (2 * length (t_nodes t))) [t_root t].

(** dynamic_tree.cpp:341-343 *)
Definition get_node (t : tree) (id : nat) : res tnode := nget (t_nodes t) (Some id).
End tree.
Arguments tnode : clear implicits.
Arguments tree : clear implicits.
