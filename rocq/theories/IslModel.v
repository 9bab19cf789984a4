(** Model of the island manager (src/edyn/simulation/island_manager.cpp) on the
    entity graph of GraphModel.

    Entities are never reused ([w_next] counts up).  A registry component is a
    map or a set.  [entt::sparse_set] is the list of its packed array: [push]
    appends and asserts that the entity is not there, [erase] moves the last
    element into the hole, iteration goes from the last to the first.  AABBs,
    the disabled tag and the other listeners of the registry are not modelled.
    Times are integers; velocities are the set [w_fast] of entities above a
    sleep threshold. *)
From Coq Require Import ZArith.
From Verif Require Export Outcome FreeListModel GraphModel.
From stdpp Require Import sorting.

(** ** Sparse sets *)
Definition ss_push (x : nat) (l : list nat) : res (list nat) :=
  _ ← assert_ (bool_decide (x ∉ l)); Ok (l ++ [x]).
Definition ss_pop (x : nat) (l : list nat) : list nat :=
  match list_find (λ y, y = x) l, last l with
  | Some (i, _), Some y => take (length l - 1) (<[i := y]> l)
  | _, _ => l
  end.
Definition ss_erase (x : nat) (l : list nat) : res (list nat) :=
  _ ← require_ (bool_decide (x ∈ l)); Ok (ss_pop x l).
Definition ss_pushes (xs l : list nat) : res (list nat) := foldl (λ r x, l ← r; ss_push x l) (Ok l) xs.

(** ** State *)
(** struct island, include/edyn/comp/island.hpp:18-22 *)
Record island := Island { il_nodes : list nat; il_edges : list nat; il_sleep : option Z }.
Record world := World {
  w_graph : graph;
  w_valid : gset nat;                 (* valid entities *)
  w_node : gmap nat nat;              (* graph_node *)
  w_edge : gmap nat nat;              (* graph_edge *)
  w_proc : gset nat;                  (* procedural_tag *)
  w_res : gmap nat (option nat);      (* island_resident *)
  w_multi : gmap nat (list nat);      (* multi_island_resident *)
  w_isl : gmap nat island;            (* island *)
  w_newn : list nat;                  (* m_new_graph_nodes *)
  w_newe : list nat;                  (* m_new_graph_edges *)
  w_split : list nat;                 (* m_islands_to_split *)
  w_wake : list nat;                  (* m_islands_to_wake_up *)
  w_asleep : gset nat;                (* sleeping_tag *)
  w_nosleep : gset nat;               (* sleeping_disabled_tag *)
  w_fast : gset nat;                  (* faster than a sleep threshold *)
  w_last : Z;                         (* m_last_time *)
  w_next : nat                        (* the next entity *)
}.
Definition set_graph w a := World a (w_valid w) (w_node w) (w_edge w) (w_proc w) (w_res w) (w_multi w) (w_isl w) (w_newn w) (w_newe w) (w_split w) (w_wake w) (w_asleep w) (w_nosleep w) (w_fast w) (w_last w) (w_next w).
Definition set_valid w a := World (w_graph w) a (w_node w) (w_edge w) (w_proc w) (w_res w) (w_multi w) (w_isl w) (w_newn w) (w_newe w) (w_split w) (w_wake w) (w_asleep w) (w_nosleep w) (w_fast w) (w_last w) (w_next w).
Definition set_node w a := World (w_graph w) (w_valid w) a (w_edge w) (w_proc w) (w_res w) (w_multi w) (w_isl w) (w_newn w) (w_newe w) (w_split w) (w_wake w) (w_asleep w) (w_nosleep w) (w_fast w) (w_last w) (w_next w).
Definition set_edge w a := World (w_graph w) (w_valid w) (w_node w) a (w_proc w) (w_res w) (w_multi w) (w_isl w) (w_newn w) (w_newe w) (w_split w) (w_wake w) (w_asleep w) (w_nosleep w) (w_fast w) (w_last w) (w_next w).
Definition set_proc w a := World (w_graph w) (w_valid w) (w_node w) (w_edge w) a (w_res w) (w_multi w) (w_isl w) (w_newn w) (w_newe w) (w_split w) (w_wake w) (w_asleep w) (w_nosleep w) (w_fast w) (w_last w) (w_next w).
Definition set_res w a := World (w_graph w) (w_valid w) (w_node w) (w_edge w) (w_proc w) a (w_multi w) (w_isl w) (w_newn w) (w_newe w) (w_split w) (w_wake w) (w_asleep w) (w_nosleep w) (w_fast w) (w_last w) (w_next w).
Definition set_multi w a := World (w_graph w) (w_valid w) (w_node w) (w_edge w) (w_proc w) (w_res w) a (w_isl w) (w_newn w) (w_newe w) (w_split w) (w_wake w) (w_asleep w) (w_nosleep w) (w_fast w) (w_last w) (w_next w).
Definition set_isl w a := World (w_graph w) (w_valid w) (w_node w) (w_edge w) (w_proc w) (w_res w) (w_multi w) a (w_newn w) (w_newe w) (w_split w) (w_wake w) (w_asleep w) (w_nosleep w) (w_fast w) (w_last w) (w_next w).
Definition set_new w a b := World (w_graph w) (w_valid w) (w_node w) (w_edge w) (w_proc w) (w_res w) (w_multi w) (w_isl w) a b (w_split w) (w_wake w) (w_asleep w) (w_nosleep w) (w_fast w) (w_last w) (w_next w).
Definition set_split w a := World (w_graph w) (w_valid w) (w_node w) (w_edge w) (w_proc w) (w_res w) (w_multi w) (w_isl w) (w_newn w) (w_newe w) a (w_wake w) (w_asleep w) (w_nosleep w) (w_fast w) (w_last w) (w_next w).
Definition set_wake w a := World (w_graph w) (w_valid w) (w_node w) (w_edge w) (w_proc w) (w_res w) (w_multi w) (w_isl w) (w_newn w) (w_newe w) (w_split w) a (w_asleep w) (w_nosleep w) (w_fast w) (w_last w) (w_next w).
Definition set_asleep w a := World (w_graph w) (w_valid w) (w_node w) (w_edge w) (w_proc w) (w_res w) (w_multi w) (w_isl w) (w_newn w) (w_newe w) (w_split w) (w_wake w) a (w_nosleep w) (w_fast w) (w_last w) (w_next w).
Definition set_nosleep w a := World (w_graph w) (w_valid w) (w_node w) (w_edge w) (w_proc w) (w_res w) (w_multi w) (w_isl w) (w_newn w) (w_newe w) (w_split w) (w_wake w) (w_asleep w) a (w_fast w) (w_last w) (w_next w).
Definition set_fast w a := World (w_graph w) (w_valid w) (w_node w) (w_edge w) (w_proc w) (w_res w) (w_multi w) (w_isl w) (w_newn w) (w_newe w) (w_split w) (w_wake w) (w_asleep w) (w_nosleep w) a (w_last w) (w_next w).
Definition set_last w a := World (w_graph w) (w_valid w) (w_node w) (w_edge w) (w_proc w) (w_res w) (w_multi w) (w_isl w) (w_newn w) (w_newe w) (w_split w) (w_wake w) (w_asleep w) (w_nosleep w) (w_fast w) a (w_next w).
Definition set_next w a := World (w_graph w) (w_valid w) (w_node w) (w_edge w) (w_proc w) (w_res w) (w_multi w) (w_isl w) (w_newn w) (w_newe w) (w_split w) (w_wake w) (w_asleep w) (w_nosleep w) (w_fast w) (w_last w) a.

Definition w_empty (t : Z) : world := World g_empty ∅ ∅ ∅ ∅ ∅ ∅ ∅ [] [] [] [] ∅ ∅ ∅ t 0.
Definition lst (l : list nat) : gset nat := list_to_set l.
Definition fold_res {A} (f : world → A → res world) (w : world) (l : list A) : res world :=
  foldl (λ r x, w ← r; f w x) (Ok w) l.

(** registry.create() *)
Definition create (w : world) : world * nat := (set_valid (set_next w (S (w_next w))) ({[w_next w]} ∪ w_valid w), w_next w).

(** ** Bodies and edges *)
(** The part of make_rigidbody for the graph, src/edyn/util/rigidbody.cpp:140-172, and
    on_construct_graph_node, island_manager.cpp:39-41 *)
Definition new_node (w : world) (proc nosleep : bool) : res (world * nat) :=
  let '(w, x) := create w in
  '(g, i) ← insert_node (w_graph w) (Some x) (negb proc);
  let w := set_graph w g in
  let w := if proc then set_proc w ({[x]} ∪ w_proc w) else w in
  let w := if nosleep then set_nosleep w ({[x]} ∪ w_nosleep w) else w in
  let w := set_new (set_node w (<[x := i]> (w_node w))) (w_newn w ++ [x]) (w_newe w) in
  Ok (if proc then set_res w (<[x := None]> (w_res w)) else set_multi w (<[x := []]> (w_multi w)), x).
(** pre_make_constraint, src/edyn/util/constraint_util.cpp:22-45, and
    on_construct_graph_edge, island_manager.cpp:43-45 *)
Definition new_edge (w : world) (a b : nat) : res (world * nat) :=
  let '(w, k) := create w in
  i ← opt_res (w_node w !! a);
  j ← opt_res (w_node w !! b);
  '(g, e) ← insert_edge (w_graph w) (Some k) i j;
  let w := set_graph w g in
  let w := set_new (set_edge w (<[k := e]> (w_edge w))) (w_newn w) (w_newe w ++ [k]) in
  Ok (set_res w (<[k := None]> (w_res w)), k).

Definition add_new (x : nat) (l : list nat) : list nat := if decide (x ∈ l) then l else l ++ [x].

(** on_destroy_island_resident, island_manager.cpp:74-97 *)
Definition destroy_resident (w : world) (x : nat) : res world :=
  r ← opt_res (w_res w !! x);
  match r with
  | None => Ok w
  | Some isl =>
    il ← opt_res (w_isl w !! isl);
    il ← (if decide (x ∈ il_nodes il) then ns ← ss_erase x (il_nodes il); Ok (Island ns (il_edges il) (il_sleep il))
          else if decide (x ∈ il_edges il) then es ← ss_erase x (il_edges il); Ok (Island (il_nodes il) es (il_sleep il))
          else Ok il);
    let w := set_isl w (<[isl := il]> (w_isl w)) in
    Ok (set_wake (set_split w (add_new isl (w_split w))) (add_new isl (w_wake w)))
  end.
(** on_destroy_multi_island_resident, island_manager.cpp:99-115; [get] and [erase]
    need the component and the element *)
Definition destroy_multi (w : world) (x : nat) : res world :=
  is ← opt_res (w_multi w !! x);
  fold_res (λ w isl,
    il ← opt_res (w_isl w !! isl);
    ns ← ss_erase x (il_nodes il);
    let w := set_isl w (<[isl := Island ns (il_edges il) (il_sleep il)]> (w_isl w)) in
    Ok (set_wake w (add_new isl (w_wake w)))) w (reverse is).

(** registry.destroy() of a body or edge, and of an island *)
Definition forget (w : world) (x : nat) : world :=
  let w := set_valid w (w_valid w ∖ {[x]}) in
  let w := set_edge (set_node w (delete x (w_node w))) (delete x (w_edge w)) in
  let w := set_multi (set_res w (delete x (w_res w))) (delete x (w_multi w)) in
  let w := set_proc w (w_proc w ∖ {[x]}) in
  set_fast (set_nosleep (set_asleep w (w_asleep w ∖ {[x]})) (w_nosleep w ∖ {[x]})) (w_fast w ∖ {[x]}).

Definition drop_island (w : world) (h : nat) : world :=
  set_asleep (set_isl (set_valid w (w_valid w ∖ {[h]})) (delete h (w_isl w))) (w_asleep w ∖ {[h]}).

(** Destroying an edge.  [signal]: on_destroy_graph_edge (island_manager.cpp:68-72)
    is connected. *)
Definition del_edge (signal : bool) (w : world) (k : nat) : res world :=
  e ← opt_res (w_edge w !! k);
  g ← (if signal then remove_edge (w_graph w) e else Ok (w_graph w));
  w ← destroy_resident (set_graph w g) k;
  Ok (forget w k).
(** Destroying a body: on_destroy_graph_node, island_manager.cpp:47-66, then the
    resident components.  EnTT's order of the pools is not modelled. *)
Definition del_node (w : world) (x : nat) : res world :=
  i ← opt_res (w_node w !! x);
  ks ← visit_edges (w_graph w) i;
  w ← fold_res (λ w e, k ← edge_entity (w_graph w) e; del_edge false w k) w ks;
  g ← remove_all_edges (w_graph w) i;
  g ← remove_node g i;
  let w := set_graph w g in
  w ← (if decide (is_Some (w_res w !! x)) then destroy_resident w x else destroy_multi w x);
  Ok (forget w x).
(** clear_constraint, src/edyn/util/constraint_util.cpp:53-58: the entity stays. *)
Definition clear_edge (w : world) (k : nat) : res world :=
  let v := w_valid w in w ← del_edge true w k; Ok (set_valid w v).

(** ** Waking, src/edyn/util/island_util.cpp:7-13 and 61-66 *)
Definition unsleep (w : world) (isl : nat) (ns es : list nat) : world :=
  set_asleep w (w_asleep w ∖ ({[isl]} ∪ lst ns ∪ lst es)).
Definition wake_island (w : world) (isl : nat) : res world :=
  if decide (isl ∈ w_asleep w) then
    il ← opt_res (w_isl w !! isl);
    Ok (unsleep w isl (il_nodes il) (il_edges il))
  else Ok w.
(** wake_up_islands, island_manager.cpp:524-531 *)
Definition wake_islands (w : world) : res world :=
  w ← fold_res (λ w isl, if decide (isl ∈ w_valid w) then wake_island w isl else Ok w) w (reverse (w_wake w));
  Ok (set_wake w []).

(** ** Inserting and merging *)
(** create_island, island_manager.cpp:249-255 *)
Definition create_island (w : world) : world * nat :=
  let '(w, isl) := create w in (set_isl w (<[isl := Island [] [] None]> (w_isl w)), isl).
(** The loop over the nodes of insert_to_island, island_manager.cpp:264-283 *)
Definition insert_node_to (isl : nat) (w : world) (x : nat) : res world :=
  il ← opt_res (w_isl w !! isl);
  w ← match w_res w !! x with
      | Some _ =>
        ns ← ss_push x (il_nodes il);
        let w := set_isl w (<[isl := Island ns (il_edges il) (il_sleep il)]> (w_isl w)) in
        Ok (set_res w (<[x := Some isl]> (w_res w)))
      | None =>
        is ← opt_res (w_multi w !! x);
        let w := set_multi w (<[x := add_new isl is]> (w_multi w)) in
        Ok (set_isl w (<[isl := Island (add_new x (il_nodes il)) (il_edges il) (il_sleep il)]> (w_isl w)))
      end;
  Ok (set_asleep w (w_asleep w ∖ {[x]})).
(** The loop over the edges, lines 285-290 *)
Definition insert_edge_to (isl : nat) (w : world) (k : nat) : res world :=
  _ ← opt_res (w_res w !! k);
  let w := set_res w (<[k := Some isl]> (w_res w)) in
  Ok (set_asleep w (w_asleep w ∖ {[k]})).
(** insert_to_island, island_manager.cpp:257-295 *)
Definition insert_to_island (w : world) (isl : nat) (ns es : list nat) : res world :=
  w ← fold_res (insert_node_to isl) w ns;
  w ← fold_res (insert_edge_to isl) w es;
  il ← opt_res (w_isl w !! isl);
  es' ← ss_pushes es (il_edges il);
  wake_island (set_isl w (<[isl := Island (il_nodes il) es' (il_sleep il)]> (w_isl w))) isl.

(** The choice of the biggest island, island_manager.cpp:303-317 *)
Fixpoint biggest (w : world) (is : list nat) (best : option nat) (size : nat) : res (option nat) :=
  match is with
  | [] => Ok best
  | isl :: is =>
    il ← opt_res (w_isl w !! isl);
    let n := length (il_nodes il) + length (il_edges il) in
    if decide (size < n) then biggest w is (Some isl) n else biggest w is best size
  end.
(** Everything to move, island_manager.cpp:322-338 *)
Fixpoint gather (w : world) (is : list nat) (ns es : list nat) : res (list nat * list nat) :=
  match is with
  | [] => Ok (ns, es)
  | isl :: is =>
    il ← opt_res (w_isl w !! isl);
    gather w is (foldl (λ l x, add_new x l) ns (reverse (il_nodes il))) (es ++ reverse (il_edges il))
  end.
(** merge_islands, island_manager.cpp:297-350 *)
Definition merge_islands (w : world) (is ns es : list nat) : res (world * nat) :=
  _ ← assert_ (bool_decide (1 < length is));
  best ← biggest w is None 0;
  match best with
  | None => AssertFail
  | Some isl =>
    let others := filter (λ J, J ≠ isl) is in
    '(ns, es) ← gather w others ns es;
    w ← insert_to_island w isl ns es;
    let w := foldl drop_island w others in
    Ok (set_multi w ((λ l, foldl (λ l J, ss_pop J l) l others) <$> w_multi w), isl)
  end.

(** ** init_new_nodes_and_edges *)
(** The vectors captured by the visitors, and what [reach] has marked. *)
Record coll := Coll { c_nodes : list nat; c_edges : list nat; c_isles : list nat; c_vis : gset nat; c_vedges : gset nat }.
Definition edge_null (w : world) (e : nat) : res bool :=
  k ← edge_entity (w_graph w) e;
  r ← opt_res (w_res w !! k);
  Ok (bool_decide (r = None)).
(** visit_node_func, island_manager.cpp:165-173 *)
Definition on_node (w : world) (i : nat) (c : coll) : res coll :=
  x ← node_entity (w_graph w) i;
  _ ← assert_ (bool_decide (x ∈ w_proc w));
  r ← opt_res (w_res w !! x);
  match r with
  | None => Ok (Coll (c_nodes c ++ [x]) (c_edges c) (c_isles c) (c_vis c) (c_vedges c))
  | Some _ => Ok c
  end.
(** visit_edge_func, lines 174-186 *)
Definition on_edge (w : world) (e : nat) (c : coll) : res coll :=
  k ← edge_entity (w_graph w) e;
  r ← opt_res (w_res w !! k);
  match r with
  | None => Ok (Coll (c_nodes c) (c_edges c ++ [k]) (c_isles c) (c_vis c) (c_vedges c))
  | Some isl => Ok (Coll (c_nodes c) (c_edges c) (add_new isl (c_isles c)) (c_vis c) (c_vedges c))
  end.
(** should_visit_func, lines 187-225 *)
Definition on_should (w : world) (j : nat) (c : coll) : res (coll * bool) :=
  x ← node_entity (w_graph w) j;
  if decide (x ∈ w_proc w) then
    r ← opt_res (w_res w !! x);
    match r with
    | None => Ok (c, true)
    | Some isl =>
      ks ← visit_edges (w_graph w) j;
      b ← foldl (λ r e, b ← r; n ← edge_null w e; Ok (b || n)) (Ok false) ks;
      Ok (Coll (c_nodes c) (c_edges c) (add_new isl (c_isles c)) (c_vis c) (c_vedges c), b)
    end
  else Ok (Coll (add_new x (c_nodes c)) (c_edges c) (c_isles c) (c_vis c) (c_vedges c), false).
(** Its result, which does not depend on what was collected. *)
Definition should (w : world) (j : nat) : bool :=
  match on_should w j (Coll [] [] [] ∅ ∅) with Ok (_, b) => b | _ => false end.

(** The calls of the visitors by [reach] (entity_graph.hpp:297-338) for one
    visited node: visit the node, then for each adjacency the edges and perhaps
    the neighbour. *)
Definition replay_edges (w : world) (ks : list nat) (c : coll) : res coll :=
  foldl (λ r e, c ← r;
    if decide (e ∈ c_vedges c) then Ok c
    else c ← on_edge w e c; Ok (Coll (c_nodes c) (c_edges c) (c_isles c) (c_vis c) ({[e]} ∪ c_vedges c))) (Ok c) ks.
Definition replay_adj (w : world) (c : coll) (a : nat) : res coll :=
  ae ← fl_get (g_adjs (w_graph w)) (Some a);
  ks ← collect (g_edges (w_graph w)) (fl_range (g_edges (w_graph w))) (a_edge ae.1);
  c ← replay_edges w ks c;
  j ← opt_res (a_node ae.1);
  if decide (j ∈ c_vis c) then Ok c
  else
    '(c, b) ← on_should w j c;
    Ok (if (b : bool) then Coll (c_nodes c) (c_edges c) (c_isles c) ({[j]} ∪ c_vis c) (c_vedges c) else c).
Definition replay_node (w : world) (c : coll) (i : nat) : res coll :=
  c ← on_node w i c;
  ne ← fl_get (g_nodes (w_graph w)) (Some i);
  if n_nc ne.1 then Ok c
  else
    adjs ← collect (g_adjs (w_graph w)) (fl_range (g_adjs (w_graph w))) (n_adj ne.1);
    foldl (λ r a, c ← r; replay_adj w c a) (Ok c) adjs.
Definition replay (w : world) (is : list nat) (c : coll) : res coll :=
  foldl (λ r i, c ← r; replay_node w c i) (Ok c) is.

(** connected_component_func, island_manager.cpp:226-246 *)
Definition component (w : world) (c : coll) : res world :=
  match c_isles c with
  | [] => let '(w, isl) := create_island w in insert_to_island w isl (c_nodes c) (c_edges c)
  | [isl] => insert_to_island w isl (c_nodes c) (c_edges c)
  | is => '(w, _) ← merge_islands w is (c_nodes c) (c_edges c); Ok w
  end.

(** entity_graph::reach with these visitors, entity_graph.hpp:277-353.  The
    visitors change nothing [reach] reads before [component_func] runs, so the
    order of the visits of a component comes from the walk of GraphModel and
    the visitors are called along it. *)
Fixpoint reach_isl (starts : list nat) (V K : gset nat) (c : coll) (w : world) : res world :=
  match starts with
  | [] => Ok w
  | s :: starts =>
    ne ← fl_get (g_nodes (w_graph w)) (Some s);
    _ ← assert_ (negb (n_nc ne.1));
    if decide (s ∈ V) then reach_isl starts V K c w
    else
      '(c, b) ← on_should w s c;
      if (b : bool) then
        k ← walk_loop (WP true true (should w) false) (w_graph w) (S (fl_range (g_nodes (w_graph w))))
              (Walk V K [s] [] [] []);
        c ← replay w (reverse (w_nodes k)) (Coll (c_nodes c) (c_edges c) (c_isles c) ({[s]} ∪ V) K);
        w ← component w c;
        reach_isl starts (w_visited k ∖ list_to_set (w_nc k)) (w_vedges k) (Coll [] [] [] ∅ ∅) w
      else reach_isl starts V K c w
  end.

(** The procedural ends of the new edges, island_manager.cpp:137-150 *)
Definition node_index (w : world) (x : option nat) : res (list nat) :=
  x ← opt_res x;
  if decide (x ∈ w_proc w) then i ← opt_res (w_node w !! x); Ok [i] else Ok [].
Definition edge_starts (w : world) (k : nat) : res (list nat) :=
  e ← opt_res (w_edge w !! k);
  ab ← edge_node_entities (w_graph w) e;
  l0 ← node_index w ab.1;
  l1 ← node_index w ab.2;
  Ok (l0 ++ l1).
Definition concat_res (ls : list (res (list nat))) : res (list nat) :=
  foldr (λ m acc, l ← m; r ← acc; Ok (l ++ r)) (Ok []) ls.
(** init_new_nodes_and_edges, island_manager.cpp:117-247 *)
Definition init_new (w : world) : res world :=
  let nn := filter (λ x, x ∈ w_valid w) (w_newn w) in
  let ne := filter (λ x, x ∈ w_valid w) (w_newe w) in
  l0 ← concat_res (map (λ x, node_index w (Some x)) nn);
  l1 ← concat_res (map (edge_starts w) ne);
  let starts := merge_sort (≤) (elements (lst (l0 ++ l1))) in
  reach_isl starts ∅ ∅ (Coll [] [] [] ∅ ∅) (set_new w [] []).

(** ** split_islands *)
Definition mapM_res {A B} (f : A → res B) (l : list A) : res (list B) :=
  foldr (λ a acc, b ← f a; r ← acc; Ok (b :: r)) (Ok []) l.
(** The while loop, island_manager.cpp:394-417; [alln] is the packed array *)
Fixpoint split_loop (fuel : nat) (w : world) (alln : list nat) : res (list (list nat * list nat)) :=
  match last alln with
  | None => Ok []
  | Some x =>
    match fuel with
    | 0 => NoFuel
    | S fuel =>
      if decide (x ∈ w_proc w) then
        i ← opt_res (w_node w !! x);
        '(is, es) ← traverse (w_graph w) i;
        ns ← mapM_res (node_entity (w_graph w)) is;
        ks ← mapM_res (edge_entity (w_graph w)) es;
        ns' ← ss_pushes ns [];
        ks' ← ss_pushes ks [];
        r ← split_loop fuel w (foldl (λ l y, ss_pop y l) alln ns);
        Ok ((ns', ks') :: r)
      else alln ← ss_erase x alln; split_loop fuel w alln
    end
  end.
(** The index of the biggest, lines 428-438 *)
Fixpoint biggest_idx (cs : list (list nat * list nat)) (i best size : nat) : nat :=
  match cs with
  | [] => best
  | c :: cs => if decide (size < length c.1) then biggest_idx cs (S i) i (length c.1) else biggest_idx cs (S i) best size
  end.
(** lines 442-443 *)
Definition swap_last {A} (i : nat) (l : list A) : list A :=
  match last l with Some y => take (length l - 1) (<[i := y]> l) | None => l end.
(** The new islands, lines 466-518 *)
Definition split_node (src J : nat) (w : world) (x : nat) : res world :=
  if decide (x ∈ w_proc w) then
    _ ← opt_res (w_res w !! x); Ok (set_res w (<[x := Some J]> (w_res w)))
  else
    is ← opt_res (w_multi w !! x);
    is ← ss_push J is;
    il ← opt_res (w_isl w !! src);
    Ok (set_multi w (<[x := if decide (x ∈ il_nodes il) then is else ss_pop src is]> (w_multi w))).
Definition split_edge (J : nat) (w : world) (k : nat) : res world :=
  _ ← opt_res (w_res w !! k); Ok (set_res w (<[k := Some J]> (w_res w))).
Definition split_new (src : nat) (w : world) (c : list nat * list nat) : res world :=
  let '(w, J) := create w in
  let w := set_isl w (<[J := Island c.1 c.2 None]> (w_isl w)) in
  w ← fold_res (split_node src J) w (reverse c.1);
  w ← fold_res (split_edge J) w (reverse c.2);
  Ok (unsleep w J c.1 c.2).
(** One island of the loop, lines 369-519 *)
Definition split_one (w : world) (isl : nat) : res world :=
  il ← opt_res (w_isl w !! isl);
  if decide (Forall (λ x, x ∉ w_proc w) (il_nodes il)) then
    _ ← assert_ (bool_decide (il_edges il = []));
    w ← fold_res (λ w x, is ← opt_res (w_multi w !! x); is ← ss_erase isl is;
                         Ok (set_multi w (<[x := is]> (w_multi w)))) w (reverse (il_nodes il));
    Ok (drop_island w isl)
  else
    alln ← ss_pushes (reverse (il_nodes il)) [];
    cs ← split_loop (S (length alln)) w alln;
    _ ← assert_ (bool_decide (cs ≠ []));
    if decide (length cs = 1) then Ok w
    else
      let b := biggest_idx cs 0 0 0 in
      c ← opt_res (cs !! b);
      let w := set_isl w (<[isl := Island c.1 c.2 None]> (w_isl w)) in
      let w := unsleep w isl c.1 c.2 in
      fold_res (split_new isl) w (swap_last b cs).
(** split_islands, lines 352-522.  Erasing while iterating from the last element. *)
Definition split_islands (w : world) : res world :=
  let l := foldl (λ l isl, if decide (isl ∈ w_valid w) then l else ss_pop isl l) (w_split w) (reverse (w_split w)) in
  w ← fold_res split_one w (reverse l);
  Ok (set_split w []).

(** ** Sleeping *)
Definition emplace_asleep (w : world) (x : nat) : res world :=
  _ ← require_ (bool_decide (x ∉ w_asleep w)); Ok (set_asleep w ({[x]} ∪ w_asleep w)).
(** put_to_sleep, lines 541-565 *)
Definition put_to_sleep (w : world) (isl : nat) : res world :=
  w ← emplace_asleep w isl;
  il ← opt_res (w_isl w !! isl);
  w ← fold_res (λ w x, if decide (x ∈ w_proc w) then w ← emplace_asleep w x; Ok (set_fast w (w_fast w ∖ {[x]})) else Ok w)
        w (reverse (il_nodes il));
  fold_res emplace_asleep w (reverse (il_edges il)).
(** could_go_to_sleep, lines 573-603 *)
Definition calm (w : world) (il : island) : bool :=
  forallb (λ x, bool_decide (x ∉ w_nosleep w)) (il_nodes il) &&
  forallb (λ x, bool_decide (x ∉ w_fast w)) (il_nodes il).
Definition set_stamp (w : world) (isl : nat) (t : option Z) : world :=
  match w_isl w !! isl with
  | Some il => set_isl w (<[isl := Island (il_nodes il) (il_edges il) t]> (w_isl w))
  | None => w
  end.
(** The body of the loop of put_islands_to_sleep, lines 608-622.  [tts] is
    island_time_to_sleep, include/edyn/config/constants.hpp:48. *)
Definition sleep_one (tts : Z) (w : world) (isl : nat) : res world :=
  il ← opt_res (w_isl w !! isl);
  if decide (isl ∈ w_asleep w) then Ok w
  else if calm w il then
    match il_sleep il with
    | None => Ok (set_stamp w isl (Some (w_last w)))
    | Some t0 =>
      if (tts <? w_last w - t0)%Z then w ← put_to_sleep w isl; Ok (set_stamp w isl None) else Ok w
    end
  else Ok (set_stamp w isl None).
(** put_islands_to_sleep, lines 605-623; the order of the view is not modelled. *)
Definition sleep_islands (tts : Z) (w : world) : res world :=
  fold_res (sleep_one tts) w (map_to_list (w_isl w)).*1.

(** island_manager::update, lines 533-539 *)
Definition update (tts : Z) (w : world) (t : Z) : res world :=
  w ← wake_islands w;
  w ← init_new w;
  w ← split_islands w;
  w ← sleep_islands tts w;
  Ok (set_last w t).

(** ** Changing the kind of a body *)
(** The part of rigidbody_apply_kind for the graph, src/edyn/util/rigidbody.cpp:579-589,
    and set_procedural, island_manager.cpp:625-662.  Contact manifolds (lines
    593-605) are not modelled: edges are constraints here.  Pushing entt::null
    to a sparse set is undefined. *)
Definition set_kind (w : world) (x : nat) (proc : bool) : res world :=
  let w := set_proc w (if proc then {[x]} ∪ w_proc w else w_proc w ∖ {[x]}) in
  i ← opt_res (w_node w !! x);
  g ← set_connecting_node (w_graph w) i proc;
  let w := set_graph w g in
  if proc then
    match w_multi w !! x with
    | None => Ok w
    | Some [] =>
      let w := set_res (set_multi w (delete x (w_multi w))) (<[x := None]> (w_res w)) in
      let '(w, isl) := create_island w in insert_to_island w isl [x] []
    | Some is =>
      '(w, isl) ← (if decide (1 < length is) then merge_islands w (reverse is) [] []
                 else isl ← opt_res (last is); Ok (w, isl));
      Ok (set_res (set_multi w (delete x (w_multi w))) (<[x := Some isl]> (w_res w)))
    end
  else
    match w_res w !! x with
    | None => Ok w
    | Some r =>
      isl ← opt_res r;
      Ok (set_res (set_multi w (<[x := [isl]]> (w_multi w))) (delete x (w_res w)))
    end.

(** ** Histories *)
Inductive iop :=
| NewNode (proc nosleep : bool)
| NewEdge (a b : nat)
| DelNode (x : nat)
| DelEdge (k : nat)
| SetFast (fs : gset nat)      (* the solver leaves these bodies fast *)
| Update (t : Z).
Definition istep (tts : Z) (w : world) (o : iop) : res (world * nat) :=
  match o with
  | NewNode p s => new_node w p s
  | NewEdge a b => new_edge w a b
  | DelNode x => w ← del_node w x; Ok (w, 0)
  | DelEdge k => w ← del_edge true w k; Ok (w, 0)
  | SetFast fs => Ok (set_fast w fs, 0)
  | Update t => w ← update tts w t; Ok (w, 0)
  end.
Definition irun (tts : Z) (w : world) (os : list iop) : res world :=
  fold_res (λ w o, '(w, _) ← istep tts w o; Ok w) w os.
