(** Model of entity_graph: include/edyn/core/entity_graph.hpp and
    src/edyn/core/entity_graph.cpp.

    The three free lists hold nodes, edges and adjacencies.  The member [next]
    of each struct is the second component of a free list element.
    [entt::null] is [None]; [null_index] is [None].
    A reference such as [auto &adj = m_adjacencies[i]] is modelled by reading
    slot [i] again where the code reads through the reference. *)
From Verif Require Import Outcome FreeListModel.

Notation entity := nat (only parsing).

(** entity_graph.hpp:37-42 *)
Record node := Node {
  n_ent : option entity; n_nc : bool; n_adj : option nat }.
(** entity_graph.hpp:44-49 *)
Record edge := Edge {
  e_ent : option entity; e_n0 : option nat; e_n1 : option nat;
  e_a0 : option nat; e_a1 : option nat }.
(** entity_graph.hpp:51-55 *)
Record adjacency := Adj { a_node : option nat; a_edge : option nat }.

Definition node_dflt := Node None false None.
Definition edge_dflt := Edge None None None None None.
Definition adj_dflt := Adj None None.

(** entity_graph.hpp:175-177 *)
Record graph := Graph {
  g_nodes : free_list node; g_edges : free_list edge; g_adjs : free_list adjacency }.

Definition g_empty : graph := Graph fl_empty fl_empty fl_empty.

Definition set_nodes g l := Graph l (g_edges g) (g_adjs g).
Definition set_edges g l := Graph (g_nodes g) l (g_adjs g).
Definition set_adjs g l := Graph (g_nodes g) (g_edges g) l.

(** Field updates of one slot. *)
Definition upd_n_adj (g : graph) (i : option nat) (h : option nat) : res graph :=
  e ← fl_get (g_nodes g) i;
  l ← fl_set (g_nodes g) i (Node (n_ent e.1) (n_nc e.1) h, e.2);
  Ok (set_nodes g l).
Definition upd_a_edge (g : graph) (i : option nat) (h : option nat) : res graph :=
  e ← fl_get (g_adjs g) i;
  l ← fl_set (g_adjs g) i (Adj (a_node e.1) h, e.2);
  Ok (set_adjs g l).
Definition upd_a_next (g : graph) (i : option nat) (h : option nat) : res graph :=
  e ← fl_get (g_adjs g) i;
  l ← fl_set (g_adjs g) i (e.1, h);
  Ok (set_adjs g l).
Definition upd_e_next (g : graph) (i : option nat) (h : option nat) : res graph :=
  e ← fl_get (g_edges g) i;
  l ← fl_set (g_edges g) i (e.1, h);
  Ok (set_edges g l).
Definition upd_e_a0 (g : graph) (i : option nat) (h : option nat) : res graph :=
  e ← fl_get (g_edges g) i;
  l ← fl_set (g_edges g) i
        (Edge (e_ent e.1) (e_n0 e.1) (e_n1 e.1) h (e_a1 e.1), e.2);
  Ok (set_edges g l).
Definition upd_e_a1 (g : graph) (i : option nat) (h : option nat) : res graph :=
  e ← fl_get (g_edges g) i;
  l ← fl_set (g_edges g) i
        (Edge (e_ent e.1) (e_n0 e.1) (e_n1 e.1) (e_a0 e.1) h, e.2);
  Ok (set_edges g l).

(** entity_graph.cpp:6-9 *)
Definition insert_node (g : graph) (ent : option entity) (nc : bool) : res (graph * nat) :=
  _ ← assert_ (bool_decide (is_Some ent));
  '(l, i) ← fl_insert node_dflt (g_nodes g) (Node ent nc None) None;
  Ok (set_nodes g l, i).

(** entity_graph.cpp:11-17 *)
Definition remove_node (g : graph) (i : nat) : res graph :=
  e ← fl_get (g_nodes g) (Some i);
  _ ← assert_ (bool_decide (is_Some (n_ent e.1)));
  _ ← assert_ (bool_decide (n_adj e.1 = None));
  l ← fl_remove node_dflt (g_nodes g) i;
  Ok (set_nodes g l).

(** entity_graph.cpp:19-22 *)
Definition node_entity (g : graph) (i : nat) : res entity :=
  e ← fl_get (g_nodes g) (Some i);
  match n_ent e.1 with Some x => Ok x | None => AssertFail end.

(** The search loops entity_graph.cpp:35-40, 55-60, 141-150 (search part) and
    166-171: follow the adjacency list until the adjacency leads to [target]. *)
Fixpoint find_adj (adjs : free_list adjacency) (fuel : nat) (h : option nat) (target : nat)
  : res (option nat) :=
  match h with
  | None => Ok None
  | Some a =>
    match fuel with
    | 0 => NoFuel
    | S fuel =>
      e ← fl_get adjs (Some a);
      if decide (a_node e.1 = Some target) then Ok (Some a)
      else find_adj adjs fuel e.2 target
    end
  end.

(** The search loops entity_graph.cpp:82-85 and 93-96, which assume the
    adjacency exists (indexing with null_index trips an assertion). *)
Fixpoint find_adj_strict (adjs : free_list adjacency) (fuel : nat) (h : option nat) (target : nat)
  : res nat :=
  match fuel with
  | 0 => NoFuel
  | S fuel =>
    e ← fl_get adjs h;
    if decide (a_node e.1 = Some target) then
      match h with Some a => Ok a | None => AssertFail end
    else find_adj_strict adjs fuel e.2 target
  end.

(** The loops entity_graph.cpp:108-111 and 248-251: find the element of a
    linked list whose [next] is [target]. *)
Fixpoint find_prev {T} (l : free_list T) (fuel : nat) (h : option nat) (target : nat) : res nat :=
  match fuel with
  | 0 => NoFuel
  | S fuel =>
    e ← fl_get l h;
    if decide (e.2 = Some target) then
      match h with Some a => Ok a | None => AssertFail end
    else
      _ ← assert_ (bool_decide (is_Some e.2));
      find_prev l fuel e.2 target
  end.

(** entity_graph.cpp:163-174 *)
Definition has_adjacency (g : graph) (i j : nat) : res bool :=
  e ← fl_get (g_nodes g) (Some i);
  r ← find_adj (g_adjs g) (fl_range (g_adjs g)) (n_adj e.1) j;
  Ok (bool_decide (is_Some r)).

(** entity_graph.cpp:204-216 (insert_adjacency_one_way, create_adjacency) *)
Definition insert_adjacency_one_way (g : graph) (i j k : nat) : res (graph * nat) :=
  h ← has_adjacency g i j;
  _ ← assert_ (negb h);
  '(l, a) ← fl_insert adj_dflt (g_adjs g) (Adj (Some j) (Some k)) None;
  let g := set_adjs g l in
  e ← fl_get (g_nodes g) (Some i);
  g ← upd_a_next g (Some a) (n_adj e.1);
  g ← upd_n_adj g (Some i) (Some a);
  Ok (g, a).

(** entity_graph.cpp:196-202 *)
Definition insert_adjacency (g : graph) (i j k : nat) : res graph :=
  '(g, a) ← insert_adjacency_one_way g i j k;
  g ← upd_e_a0 g (Some k) (Some a);
  if decide (i = j) then Ok g
  else
    '(g, a) ← insert_adjacency_one_way g j i k;
    upd_e_a1 g (Some k) (Some a).

(** entity_graph.cpp:24-73 *)
Definition insert_edge (g : graph) (ent : option entity) (i j : nat) : res (graph * nat) :=
  _ ← assert_ (bool_decide (is_Some ent));
  ni ← fl_get (g_nodes g) (Some i);
  _ ← assert_ (bool_decide (is_Some (n_ent ni.1)));
  nj ← fl_get (g_nodes g) (Some j);
  _ ← assert_ (bool_decide (is_Some (n_ent nj.1)));
  '(l, k) ← fl_insert edge_dflt (g_edges g) (Edge ent (Some i) (Some j) None None) None;
  let g := set_edges g l in
  oa ← find_adj (g_adjs g) (fl_range (g_adjs g)) (n_adj ni.1) j;
  match oa with
  | Some a =>
    g ← upd_e_a0 g (Some k) (Some a);
    ae ← fl_get (g_adjs g) (Some a);
    let first := a_edge ae.1 in
    _ ← assert_ (bool_decide (is_Some first));
    g ← upd_e_next g (Some k) first;
    g ← upd_a_edge g (Some a) (Some k);
    ob ← find_adj (g_adjs g) (fl_range (g_adjs g)) (n_adj nj.1) i;
    _ ← assert_ (bool_decide (is_Some ob));
    be ← fl_get (g_adjs g) ob;
    _ ← assert_ (bool_decide (a_edge be.1 = first));
    g ← upd_a_edge g ob (Some k);
    g ← upd_e_a1 g (Some k) ob;
    Ok (g, k)
  | None =>
    g ← insert_adjacency g i j k;
    Ok (g, k)
  end.

(** entity_graph.cpp:233-257 *)
Definition remove_adjacency (g : graph) (src : option nat) (a : nat) : res graph :=
  ae ← fl_get (g_adjs g) (Some a);
  _ ← assert_ (bool_decide (a_edge ae.1 = None));
  ne ← fl_get (g_nodes g) src;
  g ← (if decide (n_adj ne.1 = Some a)
       then upd_n_adj g src ae.2
       else
         p ← find_prev (g_adjs g) (fl_range (g_adjs g)) (n_adj ne.1) a;
         upd_a_next g (Some p) ae.2);
  l ← fl_remove adj_dflt (g_adjs g) a;
  Ok (set_adjs g l).

(** entity_graph.cpp:218-231 *)
Definition remove_adjacency_edge (g : graph) (src : option nat) (a k : nat) : res graph :=
  ae ← fl_get (g_adjs g) (Some a);
  ee ← fl_get (g_edges g) (Some k);
  g ← (if decide (a_edge ae.1 = Some k) then upd_a_edge g (Some a) ee.2 else Ok g);
  ae ← fl_get (g_adjs g) (Some a);
  if decide (a_edge ae.1 = None) then remove_adjacency g src a else Ok g.

(** entity_graph.cpp:75-117 *)
Definition remove_edge (g : graph) (k : nat) : res graph :=
  ee ← fl_get (g_edges g) (Some k);
  _ ← assert_ (bool_decide (is_Some (e_ent ee.1)));
  n0 ← fl_get (g_nodes g) (e_n0 ee.1);
  i ← opt_res (e_n0 ee.1);
  j ← opt_res (e_n1 ee.1);
  a0 ← find_adj_strict (g_adjs g) (S (fl_range (g_adjs g))) (n_adj n0.1) j;
  ae0 ← fl_get (g_adjs g) (Some a0);
  let first := a_edge ae0.1 in
  g ← (if decide (j = i) then Ok g
       else
         n1 ← fl_get (g_nodes g) (Some j);
         a1 ← find_adj_strict (g_adjs g) (S (fl_range (g_adjs g))) (n_adj n1.1) i;
         ae1 ← fl_get (g_adjs g) (Some a1);
         _ ← assert_ (bool_decide (first = a_edge ae1.1));
         remove_adjacency_edge g (Some j) a1 k);
  g ← remove_adjacency_edge g (Some i) a0 k;
  g ← (if decide (first = Some k) then Ok g
       else
         p ← find_prev (g_edges g) (fl_range (g_edges g)) first k;
         upd_e_next g (Some p) ee.2);
  l ← fl_remove edge_dflt (g_edges g) k;
  Ok (set_edges g l).

(** entity_graph.cpp:129-134: free every edge of an edge list. *)
Fixpoint remove_edge_list (l : free_list edge) (fuel : nat) (h : option nat)
  : res (free_list edge) :=
  match h with
  | None => Ok l
  | Some k =>
    match fuel with
    | 0 => NoFuel
    | S fuel =>
      e ← fl_get l (Some k);
      l ← fl_remove edge_dflt l k;
      remove_edge_list l fuel e.2
    end
  end.

(** entity_graph.cpp:124-155: the loop over the adjacencies of [i]. *)
Fixpoint remove_adj_list (g : graph) (i : nat) (fuel : nat) (h : option nat) : res graph :=
  match h with
  | None => Ok g
  | Some a =>
    match fuel with
    | 0 => NoFuel
    | S fuel =>
      ae ← fl_get (g_adjs g) (Some a);
      el ← remove_edge_list (g_edges g) (fl_range (g_edges g)) (a_edge ae.1);
      let g := set_edges g el in
      ne ← fl_get (g_nodes g) (a_node ae.1);
      ob ← find_adj (g_adjs g) (fl_range (g_adjs g)) (n_adj ne.1) i;
      g ← match ob with
          | None => Ok g
          | Some b =>
            g ← upd_a_edge g (Some b) None;
            remove_adjacency g (a_node ae.1) b
          end;
      ae' ← fl_get (g_adjs g) (Some a);   (* adj.next is read here, line 152 *)
      l ← fl_remove adj_dflt (g_adjs g) a;
      remove_adj_list (set_adjs g l) i fuel ae'.2
    end
  end.

(** entity_graph.cpp:119-156 *)
Definition remove_all_edges (g : graph) (i : nat) : res graph :=
  ne ← fl_get (g_nodes g) (Some i);
  g ← upd_n_adj g (Some i) None;
  remove_adj_list g i (fl_range (g_adjs g)) (n_adj ne.1).

(** entity_graph.cpp:158-161 *)
Definition edge_entity (g : graph) (k : nat) : res entity :=
  e ← fl_get (g_edges g) (Some k);
  match e_ent e.1 with Some x => Ok x | None => AssertFail end.

(** entity_graph.cpp:176-180 *)
Definition edge_node_indices (g : graph) (k : nat) : res (option nat * option nat) :=
  e ← fl_get (g_edges g) (Some k);
  _ ← assert_ (bool_decide (is_Some (e_ent e.1)));
  Ok (e_n0 e.1, e_n1 e.1).

(** entity_graph.cpp:182-186 *)
Definition edge_node_entities (g : graph) (k : nat) : res (option entity * option entity) :=
  e ← fl_get (g_edges g) (Some k);
  _ ← assert_ (bool_decide (is_Some (e_ent e.1)));
  n0 ← fl_get (g_nodes g) (e_n0 e.1);
  n1 ← fl_get (g_nodes g) (e_n1 e.1);
  Ok (n_ent n0.1, n_ent n1.1).

(** entity_graph.cpp:188-190 *)
Definition is_connecting_node (g : graph) (i : nat) : res bool :=
  e ← fl_get (g_nodes g) (Some i); Ok (negb (n_nc e.1)).

(** entity_graph.cpp:192-194 *)
Definition set_connecting_node (g : graph) (i : nat) (connecting : bool) : res graph :=
  e ← fl_get (g_nodes g) (Some i);
  l ← fl_set (g_nodes g) (Some i) (Node (n_ent e.1) (negb connecting) (n_adj e.1), e.2);
  Ok (set_nodes g l).

(** entity_graph.cpp:431-435 *)
Definition g_clear (g : graph) : graph :=
  Graph (fl_clear (g_nodes g)) (fl_clear (g_edges g)) (fl_clear (g_adjs g)).

(** entity_graph.hpp:170-171 *)
Definition num_nodes (g : graph) : Z := fl_count (g_nodes g).
Definition num_edges (g : graph) : Z := fl_count (g_edges g).

(** Following [next] from a head and collecting the indices; used by the
    visitors below.  The visitor call is represented by the collected list. *)
Fixpoint collect {T} (l : free_list T) (fuel : nat) (h : option nat) : res (list nat) :=
  match h with
  | None => Ok []
  | Some a =>
    match fuel with
    | 0 => NoFuel
    | S fuel =>
      e ← fl_get l (Some a);
      _ ← assert_ (bool_decide (e.2 ≠ Some a));   (* entity_graph.hpp:198, 223, 245 *)
      r ← collect l fuel e.2;
      Ok (a :: r)
    end
  end.

(** entity_graph.hpp:180-201, the sequence of entities passed to the visitor
    (visitor returning void). *)
Definition visit_neighbors (g : graph) (i : nat) : res (list entity) :=
  e ← fl_get (g_nodes g) (Some i);
  _ ← assert_ (bool_decide (is_Some (n_ent e.1)));
  adjs ← collect (g_adjs g) (fl_range (g_adjs g)) (n_adj e.1);
  foldr (λ a acc,
    ae ← fl_get (g_adjs g) (Some a);
    ne ← fl_get (g_nodes g) (a_node ae.1);
    match n_ent ne.1 with
    | None => AssertFail
    | Some x => r ← acc; Ok (x :: r)
    end) (Ok []) adjs.

(** entity_graph.hpp:203-230, edges between two nodes. *)
Definition visit_edges2 (g : graph) (i j : nat) : res (list nat) :=
  e ← fl_get (g_nodes g) (Some i);
  _ ← assert_ (bool_decide (j < fl_range (g_nodes g)));
  oa ← find_adj (g_adjs g) (fl_range (g_adjs g)) (n_adj e.1) j;
  match oa with
  | None => Ok []
  | Some a =>
    ae ← fl_get (g_adjs g) (Some a);
    collect (g_edges g) (fl_range (g_edges g)) (a_edge ae.1)
  end.

(** entity_graph.hpp:232-259, all edges of a node. *)
Definition visit_edges (g : graph) (i : nat) : res (list nat) :=
  e ← fl_get (g_nodes g) (Some i);
  adjs ← collect (g_adjs g) (fl_range (g_adjs g)) (n_adj e.1);
  foldr (λ a acc,
    ae ← fl_get (g_adjs g) (Some a);
    ks ← collect (g_edges g) (fl_range (g_edges g)) (a_edge ae.1);
    r ← acc;
    Ok (ks ++ r)) (Ok []) adjs.

(** ** Graph walks *)

(** [std::vector<bool>] of size [range()] is represented by the set of indices
    holding [true]; an access out of range is [UB]. *)
Record walk := Walk {
  w_visited : gset nat;     (* visited *)
  w_vedges : gset nat;      (* visited_edges *)
  w_stack : list nat;       (* to_visit; the element popped next comes first *)
  w_nodes : list nat;       (* nodes visited, in visiting order, reversed *)
  w_edges : list nat;       (* edges visited, in visiting order, reversed *)
  w_nc : list nat           (* non_connecting_indices, reversed *)
}.

(** The edge loops entity_graph.cpp:355-365, entity_graph.hpp:316-326, 397-407. *)
Fixpoint walk_edges (g : graph) (fuel : nat) (h : option nat) (w : walk) : res walk :=
  match h with
  | None => Ok w
  | Some k =>
    match fuel with
    | 0 => NoFuel
    | S fuel =>
      e ← fl_get (g_edges g) (Some k);
      if decide (k ∈ w_vedges w) then walk_edges g fuel e.2 w
      else
        _ ← assert_ (bool_decide (is_Some (e_ent e.1)));
        walk_edges g fuel e.2
          (Walk (w_visited w) ({[k]} ∪ w_vedges w) (w_stack w) (w_nodes w)
                (k :: w_edges w) (w_nc w))
    end
  end.

(** Parameters in which the four walks differ. *)
Record walk_params := WP {
  wp_edges : bool;              (* whether edges are visited *)
  wp_check : bool;              (* EDYN_ASSERT(node.entity != entt::null) *)
  wp_should : nat → bool;       (* should_func of reach *)
  wp_fifo : bool                (* neighbours inserted at the beginning (traverse) *)
}.

(** The adjacency loops entity_graph.cpp:287-296, 351-377,
    entity_graph.hpp:312-338, 391-420. *)
Fixpoint walk_adjs (p : walk_params) (g : graph) (fuel : nat) (h : option nat) (w : walk)
  : res walk :=
  match h with
  | None => Ok w
  | Some a =>
    match fuel with
    | 0 => NoFuel
    | S fuel =>
      ae ← fl_get (g_adjs g) (Some a);
      w ← (if wp_edges p then walk_edges g (fl_range (g_edges g)) (a_edge ae.1) w else Ok w);
      nb ← opt_res (a_node ae.1);
      _ ← require_ (bool_decide (nb < fl_range (g_nodes g)));
      let w :=
        if decide (nb ∉ w_visited w ∧ wp_should p nb = true) then
          Walk ({[nb]} ∪ w_visited w) (w_vedges w)
               (if wp_fifo p then w_stack w ++ [nb] else nb :: w_stack w)
               (w_nodes w) (w_edges w) (w_nc w)
        else w in
      walk_adjs p g fuel ae.2 w
    end
  end.

(** The worklist loops entity_graph.cpp:274-297, 335-378,
    entity_graph.hpp:293-339, 373-421. *)
Fixpoint walk_loop (p : walk_params) (g : graph) (fuel : nat) (w : walk) : res walk :=
  match w_stack w with
  | [] => Ok w
  | i :: st =>
    match fuel with
    | 0 => NoFuel
    | S fuel =>
      _ ← require_ (bool_decide (i < fl_range (g_nodes g)));
      ne ← fl_get (g_nodes g) (Some i);
      _ ← assert_ (negb (wp_check p) || bool_decide (is_Some (n_ent ne.1)));
      let w := Walk ({[i]} ∪ w_visited w) (w_vedges w) st (i :: w_nodes w) (w_edges w) (w_nc w) in
      if n_nc ne.1 then
        walk_loop p g fuel
          (Walk (w_visited w) (w_vedges w) (w_stack w) (w_nodes w) (w_edges w) (i :: w_nc w))
      else
        w ← walk_adjs p g (fl_range (g_adjs g)) (n_adj ne.1) w;
        walk_loop p g fuel w
    end
  end.

(** entity_graph.cpp:266-272, 321-327 and 388-395: first slot holding a
    connecting node which is not visited. *)
Fixpoint find_start (els : list (node * option nat)) (base : nat) (visited : gset nat) : option nat :=
  match els with
  | [] => None
  | e :: els =>
    if decide (base ∉ visited ∧ is_Some (n_ent e.1) ∧ n_nc e.1 = false) then Some base
    else find_start els (S base) visited
  end.

(** entity_graph.cpp:259-309 *)
Definition is_single_connected_component (g : graph) : res bool :=
  _ ← assert_ (bool_decide (0 < num_nodes g)%Z);
  let st := match find_start (fl_elem (g_nodes g)) 0 ∅ with Some i => [i] | None => [] end in
  w ← walk_loop (WP false false (λ _, true) false) g (S (fl_range (g_nodes g)))
        (Walk ∅ ∅ st [] [] []);
  Ok (bool_decide (find_start (fl_elem (g_nodes g)) 0 (w_visited w) = None)).

(** entity_graph.cpp:331-401, one component per iteration.  The component is
    returned as node and edge indices; [connected_components] below maps them
    to entities as lines 342 and 360 do. *)
Fixpoint components_loop (g : graph) (fuel : nat) (w : walk) : res (list (list nat * list nat)) :=
  match fuel with
  | 0 => NoFuel
  | S fuel =>
    w ← walk_loop (WP true false (λ _, true) false) g (S (fl_range (g_nodes g)))
          (Walk (w_visited w) (w_vedges w) (w_stack w) [] [] []);
    let visited := w_visited w ∖ list_to_set (w_nc w) in
    let comp := (reverse (w_nodes w), reverse (w_edges w)) in
    match find_start (fl_elem (g_nodes g)) 0 visited with
    | None => Ok [comp]
    | Some i =>
      r ← components_loop g fuel (Walk visited (w_vedges w) [i] [] [] []);
      Ok (comp :: r)
    end
  end.

(** entity_graph.cpp:311-329 followed by the loop. *)
Definition component_indices (g : graph) : res (list (list nat * list nat)) :=
  let st := match find_start (fl_elem (g_nodes g)) 0 ∅ with Some i => [i] | None => [] end in
  components_loop g (S (fl_range (g_nodes g))) (Walk ∅ ∅ st [] [] []).

(** entity_graph.cpp:311-404, payloads as stored in the components. *)
Definition node_payload (g : graph) (i : nat) : option entity :=
  match fl_elem (g_nodes g) !! i with Some e => n_ent e.1 | None => None end.
Definition edge_payload (g : graph) (k : nat) : option entity :=
  match fl_elem (g_edges g) !! k with Some e => e_ent e.1 | None => None end.
Definition connected_components (g : graph)
  : res (list (list (option entity) * list (option entity))) :=
  cs ← component_indices g;
  Ok (map (λ c, (map (node_payload g) c.1, map (edge_payload g) c.2)) cs).

(** entity_graph.hpp:356-422: node and edge indices in visiting order. *)
Definition traverse (g : graph) (start : nat) : res (list nat * list nat) :=
  w ← walk_loop (WP true true (λ _, true) true) g (S (fl_range (g_nodes g)))
        (Walk ∅ ∅ [start] [] [] []);
  Ok (reverse (w_nodes w), reverse (w_edges w)).

(** entity_graph.hpp:277-353: the loop over the start nodes; one (nodes, edges)
    pair per call of [component_func].  Visited nodes and edges are indices; the
    visitors receive the entities of these slots (lines 301 and 321). *)
Fixpoint reach_loop (g : graph) (should : nat → bool) (starts : list nat) (w : walk)
  : res (list (list nat * list nat)) :=
  match starts with
  | [] => Ok []
  | s :: starts =>
    ne ← fl_get (g_nodes g) (Some s);
    _ ← assert_ (negb (n_nc ne.1));
    if decide (s ∈ w_visited w) then reach_loop g should starts w
    else if negb (should s) then reach_loop g should starts w
    else
      w ← walk_loop (WP true true should false) g (S (fl_range (g_nodes g)))
            (Walk (w_visited w) (w_vedges w) [s] [] [] []);
      r ← reach_loop g should starts
            (Walk (w_visited w ∖ list_to_set (w_nc w)) (w_vedges w) [] [] [] []);
      Ok ((reverse (w_nodes w), reverse (w_edges w)) :: r)
  end.

(** entity_graph.hpp:261-354 *)
Definition reach (g : graph) (should : nat → bool) (starts : list nat)
  : res (list (list nat * list nat)) :=
  _ ← assert_ (bool_decide (starts ≠ []));
  reach_loop g should starts (Walk ∅ ∅ [] [] [] []).
