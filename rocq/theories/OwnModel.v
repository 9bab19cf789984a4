(** Model of what a server does with the packets of a client that create,
    destroy or update entities, and of the ownership checks:
    - process_packet for registry_snapshot, create_entity, destroy_entity and
      update_entity_map (src/edyn/networking/sys/server_side.cpp:46-205),
    - enqueue_packet<registry_snapshot> (server_side.cpp:641-682),
      server_destroy_client (server_side.cpp:742-752),
    - server_snapshot_importer_impl
      (include/edyn/networking/util/server_snapshot_importer.hpp:67-355),
    - snap_to_pool_snapshot (src/edyn/networking/util/snap_to_pool_snapshot.cpp:52-69),
    - the signal handlers run when a node or an edge is destroyed
      (src/edyn/simulation/island_manager.cpp:47-72). *)
From Verif Require Import Outcome GraphModel MapModel.

(** Component types, grouped by how the code treats them: inputs
    ([network_input]), [action_history], [entity_owner], [child_list], empty
    types ([TTag]), constraints, and the ones the create packet reads
    ([shape_index], [mass], [inertia]) or derives (AABB, mass_inv, inertia_inv).
    [TTag 0] is networked_tag, [TTag 1] rigidbody_tag, [TTag 2] external_tag,
    [TTag 3] procedural_tag.  All constraint types are one type [TCon]. *)
Inductive ctype :=
| TInput (n : nat) | THistory | TOwner | TChild | TTag (n : nat) | TCon
| TShape | TMass | TInertia | TAabb | TMassInv | TInertiaInv | TPlain (n : nat).
Global Instance ctype_eq_dec : EqDecision ctype.
Proof. solve_decision. Defined.
Global Instance ctype_countable : Countable ctype.
Proof.
  refine (inj_countable' (λ t, match t with
    | TInput n => (0, n) | THistory => (1, 0) | TOwner => (2, 0) | TChild => (3, 0) | TTag n => (4, n)
    | TCon => (5, 0) | TShape => (6, 0) | TMass => (7, 0) | TInertia => (8, 0) | TAabb => (9, 0)
    | TMassInv => (10, 0) | TInertiaInv => (11, 0) | TPlain n => (12, n) end)
    (λ p, match p with
    | (0, n) => TInput n | (1, _) => THistory | (2, _) => TOwner | (3, _) => TChild | (4, n) => TTag n
    | (5, _) => TCon | (6, _) => TShape | (7, _) => TMass | (8, _) => TInertia | (9, _) => TAabb
    | (10, _) => TMassInv | (11, _) => TInertiaInv | (_, n) => TPlain n end) _).
  by intros [].
Defined.

(** A value is a list of words; [None] is entt::null.  An owner is [[client]],
    a child_list [[parent; next]], a constraint [[body0; body1; …]], an action
    history its entries. *)
Notation cval := (list (option nat)) (only parsing).

Record world := World {
  w_valid : gset nat;
  w_next : nat;                           (* identifiers below were handed out *)
  w_comps : gmap (ctype * nat) (list (option nat));
  w_node : gmap nat nat;                  (* graph_node *)
  w_edge : gmap nat nat;                  (* graph_edge *)
  w_graph : graph                         (* the entity_graph in the context *)
}.

Definition w_has (w : world) (t : ctype) (e : nat) : bool := bool_decide (is_Some (w_comps w !! (t, e))).
(** registry.emplace: a second component of the type is UB in EnTT. *)
Definition w_emplace (w : world) (t : ctype) (e : nat) (v : cval) : res world :=
  _ ← require_ (negb (w_has w t e));
  Ok (World (w_valid w) (w_next w) (<[(t, e) := v]> (w_comps w)) (w_node w) (w_edge w) (w_graph w)).
(** registry.patch with an assignment; UB without the component. *)
Definition w_patch (w : world) (t : ctype) (e : nat) (v : cval) : res world :=
  _ ← require_ (w_has w t e);
  Ok (World (w_valid w) (w_next w) (<[(t, e) := v]> (w_comps w)) (w_node w) (w_edge w) (w_graph w)).
(** registry.create: an identifier not handed out before (the version counter
    of EnTT is taken to be unbounded). *)
Definition w_create (w : world) : world * nat :=
  (World ({[w_next w]} ∪ w_valid w) (S (w_next w)) (w_comps w) (w_node w) (w_edge w) (w_graph w), w_next w).
(** entity_owner::client_entity; the outer [None] is "no component" *)
Definition w_owner (w : world) (e : nat) : option (option nat) :=
  (λ v : cval, match v with o :: _ => o | [] => None end) <$> w_comps w !! (TOwner, e).
Definition owned_by (w : world) (c e : nat) : bool := bool_decide (w_owner w e = Some (Some c)).

(** registry.destroy of an entity whose handlers have run. *)
Definition w_drop (w : world) (e : nat) : world :=
  World (w_valid w ∖ {[e]}) (w_next w) (filter (λ kv, kv.1.2 ≠ e) (w_comps w))
    (delete e (w_node w)) (delete e (w_edge w)) (w_graph w).
Definition set_graph (w : world) (g : graph) : world :=
  World (w_valid w) (w_next w) (w_comps w) (w_node w) (w_edge w) g.
(** island_manager.cpp:56-59: the entities of the edges of a node are destroyed,
    with the edge handler disconnected. *)
Definition destroy_edge_ents (g : graph) (ks : list nat) (w : world) : res world :=
  foldl (λ rw k, w ← rw; e ← edge_entity g k; _ ← require_ (bool_decide (e ∈ w_valid w)); Ok (w_drop w e)) (Ok w) ks.
(** registry.destroy(e) with the handlers of graph_node and graph_edge,
    island_manager.cpp:47-72 (stepper_async.cpp:71-117 does the same).  The
    bookkeeping of islands is left out.  An invalid entity is UB. *)
Definition w_destroy (w : world) (e : nat) : res world :=
  _ ← require_ (bool_decide (e ∈ w_valid w));
  w ← (match w_node w !! e with
       | Some i =>
         ks ← visit_edges (w_graph w) i;
         w ← destroy_edge_ents (w_graph w) ks w;
         g ← remove_all_edges (w_graph w) i;
         g ← remove_node g i;
         Ok (set_graph w g)
       | None => Ok w end);
  w ← (match w_edge w !! e with
       | Some k => g ← remove_edge (w_graph w) k; Ok (set_graph w g)
       | None => Ok w end);
  Ok (w_drop w e).

(** packet::registry_snapshot (and create_entity): entities and, per component
    type, pairs of an index into the entities and a value. *)
Record pool := Pool { p_type : ctype; p_items : list (nat * list (option nat)) }.
Record snapshot := Snapshot { sn_ents : list nat; sn_pools : list pool }.

(** remote_client.hpp:17-60, the fields used here; the queue holds snapshots
    already in local terms. *)
Record client := Client {
  cl_map : emap;
  cl_owned : gset nat;            (* owned_entities *)
  cl_aoi : gset nat;              (* aabb_of_interest::entities *)
  cl_full : bool;                 (* allow_full_ownership *)
  cl_queue : list snapshot }.
Record server := Server { s_world : world; s_clients : gmap nat client }.
Definition set_map (cl : client) (m : emap) : client := Client m (cl_owned cl) (cl_aoi cl) (cl_full cl) (cl_queue cl).
Definition put_client (s : server) (c : nat) (w : world) (cl : client) : server :=
  Server w (<[c := cl]> (s_clients s)).

(** ** Reach check *)
(** server_snapshot_importer.hpp:79-90; a missing child_list or graph_node is UB *)
Definition start_node (w : world) (e : nat) : res nat :=
  match w_edge w !! e with
  | Some k => '(a, _) ← edge_node_indices (w_graph w) k; opt_res a
  | None =>
    match w_node w !! e with
    | Some i => Ok i
    | None =>
      v ← opt_res (w_comps w !! (TChild, e));
      match v with
      | Some p :: _ => opt_res (w_node w !! p)
      | _ => UB
      end
    end
  end.
(** server_snapshot_importer.hpp:92-104 *)
Definition reach_visit (w : world) (c : nat) (acc : res (bool * bool)) (i : nat) : res (bool * bool) :=
  '(dest, other) ← acc;
  e ← node_entity (w_graph w) i;
  Ok (match w_owner w e with
      | Some (Some o) => if decide (o = c) then (true, other) else (dest, true)
      | _ => (dest, other)
      end).
(** server_snapshot_importer.hpp:67-110.  The traversal visits its nodes once. *)
Definition is_only_reachable_client (w : world) (c e : nat) : res bool :=
  i ← start_node w e;
  '(ns, _) ← traverse (w_graph w) i;
  '(dest, other) ← foldl (reach_visit w c) (Ok (false, false)) ns;
  Ok (dest && negb other).

(** map_child_entity: entities held by a component; an unknown one becomes null
    (include/edyn/replication/map_child_entity.hpp). *)
Definition has_entities (t : ctype) : bool := match t with TOwner | TChild | TCon => true | _ => false end.
Definition map_child (m : emap) (t : ctype) (v : cval) : cval :=
  if has_entities t then (λ o : option nat, x ← o; em_map m !! x) <$> v else v.
Definition checks_owner (t : ctype) : bool := match t with TInput _ | THistory => true | _ => false end.
Definition is_empty_type (t : ctype) : bool := match t with TTag _ => true | _ => false end.

(** server_snapshot_importer.hpp:194-199: [v[i] = v.back(), v.pop_back()] *)
Definition swap_pop {A} (l : list A) (i : nat) : list A :=
  match last l with
  | Some x => take (pred (length l)) (<[i := x]> l)
  | None => l
  end.

(** One decision of server_snapshot_importer.hpp:203-228; the cache maps an
    entity index to the answer of is_only_reachable_client. *)
Definition may_update (w : world) (c : nat) (t : ctype) (k e : nat) (cache : gmap nat bool)
  : res (bool * gmap nat bool) :=
  if negb (bool_decide (e ∈ w_valid w)) then Ok (false, cache)
  else if checks_owner t then Ok (owned_by w c e, cache)
  else match cache !! k with
       | Some b => Ok (b, cache)
       | None => b ← is_only_reachable_client w c e; Ok (b, <[k := b]> cache)
       end.
(** server_snapshot_importer.hpp:178-231 with check_ownership = true.  The fuel
    is the number of entries that may still be visited. *)
Fixpoint transform_items (w : world) (c : nat) (m : emap) (t : ctype) (ents : list nat) (fuel : nat)
    (i : nat) (l : list (nat * list (option nat))) (cache : gmap nat bool)
    : res (list (nat * list (option nat)) * gmap nat bool) :=
  match l !! i with
  | None => Ok (l, cache)
  | Some (k, v) =>
    match fuel with
    | 0 => NoFuel
    | S fuel =>
      e ← opt_res (ents !! k);
      '(b, cache) ← may_update w c t k e cache;
      if (b : bool) then transform_items w c m t ents fuel (S i) (<[i := (k, map_child m t v)]> l) cache
      else transform_items w c m t ents fuel i (swap_pop l i) cache
    end
  end.
(** server_snapshot_importer.hpp:297-318 *)
Fixpoint transform_pools (w : world) (c : nat) (m : emap) (ents : list nat) (ps : list pool)
    (cache : gmap nat bool) : res (list pool) :=
  match ps with
  | [] => Ok []
  | Pool t l :: ps =>
    '(l, cache) ← (if is_empty_type t then Ok (l, cache)
                   else transform_items w c m t ents (length l) 0 l cache);
    ps ← transform_pools w c m ents ps cache;
    Ok (Pool t l :: ps)
  end.
(** server_snapshot_importer.hpp:330-350: one pool; sorting the entries and
    shifting their times are left out, merging appends (action_history is
    modelled in HistModel.v). *)
Definition merge_items (ents : list nat) (w : world) (l : list (nat * list (option nat))) : res world :=
  foldl (λ rw kv, w ← rw; e ← opt_res (ents !! kv.1);
    match kv.2 with
    | [] => Ok w
    | h => cur ← opt_res (w_comps w !! (THistory, e)); w_patch w THistory e (cur ++ h)
    end) (Ok w) l.
Definition is_history (p : pool) : bool := bool_decide (p_type p = THistory).
(** server_snapshot_importer.hpp:320-354: the first history pool is merged and
    replaced with the last pool. *)
Definition merge_action_history (w : world) (ents : list nat) (ps : list pool) : res (world * list pool) :=
  match list_find (λ p, is_history p = true) ps with
  | Some (i, p) => w ← merge_items ents w (p_items p); Ok (w, swap_pop ps i)
  | None => Ok (w, ps)
  end.
(** server_side.cpp:641-682.  The time stamps and the order of the queue are in
    HistModel.v; here the snapshot goes to the end. *)
Definition receive_snapshot (s : server) (c : nat) (sn : snapshot) : res server :=
  cl ← opt_res (s_clients s !! c);
  match mapM (λ r, em_map (cl_map cl) !! r) (sn_ents sn) with
  | None => Ok s
  | Some ents =>
    ps ← transform_pools (s_world s) c (cl_map cl) ents (sn_pools sn) ∅;
    '(w, ps) ← merge_action_history (s_world s) ents ps;
    match ps with
    | [] => Ok (Server w (s_clients s))
    | _ => Ok (put_client s c w (Client (cl_map cl) (cl_owned cl) (cl_aoi cl) (cl_full cl)
                                        (cl_queue cl ++ [Snapshot ents ps])))
    end
  end.
(** pool_snapshot_data.hpp:115-132 *)
Definition replace_items (t : ctype) (ents : list nat) (w : world) (l : list (nat * list (option nat))) : res world :=
  foldl (λ rw kv, w ← rw; e ← opt_res (ents !! kv.1);
    if bool_decide (e ∈ w_valid w) && w_has w t e then w_patch w t e kv.2 else Ok w) (Ok w) l.
(** snap_to_pool_snapshot.cpp:60-62; the derived values recomputed afterwards
    (post_snap_update) are left out. *)
Definition replace_pools (ents : list nat) (w : world) (ps : list pool) : res world :=
  foldl (λ rw p, w ← rw; if is_empty_type (p_type p) then Ok w else replace_items (p_type p) ents w (p_items p)) (Ok w) ps.
(** server_side.cpp:46-53 (sequential stepper), for the snapshot at the front of
    the queue *)
Definition apply_front (s : server) (c : nat) : res server :=
  cl ← opt_res (s_clients s !! c);
  match cl_queue cl with
  | [] => Ok s
  | sn :: q =>
    w ← replace_pools (sn_ents sn) (s_world s) (sn_pools sn);
    Ok (put_client s c w (Client (cl_map cl) (cl_owned cl) (cl_aoi cl) (cl_full cl) q))
  end.

(** ** Create *)
(** server_side.cpp:84-95 *)
Definition create_one (c : nat) (acc : res (world * client)) (r : nat) : res (world * client) :=
  '(w, cl) ← acc;
  if em_contains (cl_map cl) r then Ok (w, cl)
  else
    let '(w, e) := w_create w in
    w ← w_emplace w TOwner e [Some c];
    m ← em_insert (cl_map cl) r e;
    Ok (w, Client m ({[e]} ∪ cl_owned cl) (cl_aoi cl) (cl_full cl) (cl_queue cl)).
(** server_snapshot_importer.hpp:112-175 with check_ownership = false, one entry *)
Definition import_item (t : ctype) (ents : list nat) (acc : res (world * emap)) (kv : nat * list (option nat))
  : res (world * emap) :=
  '(w, m) ← acc;
  r ← opt_res (ents !! kv.1);
  match em_map m !! r with
  | None => Ok (w, m)
  | Some e =>
    if negb (bool_decide (e ∈ w_valid w)) then m ← em_erase m r; Ok (w, m)
    else if is_empty_type t then
      (if w_has w t e then Ok (w, m) else w ← w_emplace w t e []; Ok (w, m))
    else
      let v := map_child m t kv.2 in
      w ← (if w_has w t e then w_patch w t e v else w_emplace w t e v);
      Ok (w, m)
  end.
(** server_snapshot_importer.hpp:279-295 *)
Definition import_pools (ents : list nat) (w : world) (m : emap) (ps : list pool) : res (world * emap) :=
  foldl (λ acc p, foldl (import_item (p_type p) ents) acc (p_items p)) (Ok (w, m)) ps.
(** server_side.cpp:114-165: derived components, the networked tag and the graph
    node of one entity.  The position, the shape and the values of mass and
    inertia are not looked at, nor the asserts about them. *)
Definition derive (w : world) (need made : ctype) (e : nat) : res world :=
  if w_has w need e then w_emplace w made e [] else Ok w.
Definition finish_one (m : emap) (rw : res world) (r : nat) : res world :=
  w ← rw;
  e ← em_at m r;
  w ← derive w TShape TAabb e;
  w ← derive w TMass TMassInv e;
  w ← derive w TInertia TInertiaInv e;
  w ← (if w_has w (TTag 0) e then Ok w else w_emplace w (TTag 0) e []);
  if (w_has w (TTag 1) e || w_has w (TTag 2) e) && negb (bool_decide (is_Some (w_node w !! e))) then
    '(g, i) ← insert_node (w_graph w) (Some e) (negb (w_has w (TTag 3) e));
    Ok (World (w_valid w) (w_next w) (w_comps w) (<[e := i]> (w_node w)) (w_edge w) g)
  else Ok w.
(** server_side.cpp:55-65 and 169-174 *)
Definition edge_one (m : emap) (rw : res world) (r : nat) : res world :=
  w ← rw;
  e ← em_at m r;
  match w_comps w !! (TCon, e) with
  | None => Ok w
  | Some v =>
    if bool_decide (is_Some (w_edge w !! e)) then Ok w
    else match v with
         | Some a :: Some b :: _ =>
           i ← opt_res (w_node w !! a);
           j ← opt_res (w_node w !! b);
           '(g, k) ← insert_edge (w_graph w) (Some e) i j;
           Ok (World (w_valid w) (w_next w) (w_comps w) (w_node w) (<[e := k]> (w_edge w)) g)
         | _ => UB
         end
  end.
(** server_side.cpp:77-175 *)
Definition process_create (s : server) (c : nat) (sn : snapshot) : res server :=
  cl ← opt_res (s_clients s !! c);
  '(w, cl) ← foldl (create_one c) (Ok (s_world s, cl)) (sn_ents sn);
  '(w, m) ← import_pools (sn_ents sn) w (cl_map cl) (sn_pools sn);
  w ← foldl (finish_one m) (Ok w) (sn_ents sn);
  w ← foldl (edge_one m) (Ok w) (sn_ents sn);
  Ok (put_client s c w (set_map cl m)).

(** ** Destroy *)
(** server_side.cpp:181-199, one entity.  aabb_of_interest::entities.remove
    accepts an absent entity; owned_entities.erase of an absent one is UB. *)
Definition destroy_one (c : nat) (acc : res (world * client)) (r : nat) : res (world * client) :=
  '(w, cl) ← acc;
  match em_map (cl_map cl) !! r with
  | None => Ok (w, cl)
  | Some e =>
    if bool_decide (e ∈ w_valid w) && owned_by w c e then
      w ← w_destroy w e;
      m ← em_erase (cl_map cl) r;
      _ ← require_ (bool_decide (e ∈ cl_owned cl));
      Ok (w, Client m (cl_owned cl ∖ {[e]}) (cl_aoi cl ∖ {[e]}) (cl_full cl) (cl_queue cl))
    else Ok (w, cl)
  end.
(** server_side.cpp:177-200 *)
Definition process_destroy (s : server) (c : nat) (rs : list nat) : res server :=
  cl ← opt_res (s_clients s !! c);
  '(w, cl) ← foldl (destroy_one c) (Ok (s_world s, cl)) rs;
  Ok (put_client s c w cl).

(** process_update_entity_map_packet.cpp:6-15 *)
Definition process_update_map (s : server) (c : nat) (ps : list (nat * nat)) : res server :=
  cl ← opt_res (s_clients s !! c);
  m ← foldl (λ rm p, m ← rm; if bool_decide (p.1 ∈ w_valid (s_world s)) then em_insert m p.2 p.1 else Ok m)
        (Ok (cl_map cl)) ps;
  Ok (put_client s c (s_world s) (set_map cl m)).

(** server_side.cpp:742-752; the order of the sparse set is immaterial *)
Definition destroy_client (s : server) (c : nat) : res server :=
  cl ← opt_res (s_clients s !! c);
  w ← foldl (λ rw e, w ← rw; if bool_decide (e ∈ w_valid w) then w_destroy w e else Ok w)
        (Ok (s_world s)) (elements (cl_owned cl));
  w ← w_destroy w c;
  Ok (Server w (delete c (s_clients s))).

(** Everything a client can make the server do. *)
Inductive sop :=
| OpCreate (c : nat) (sn : snapshot)
| OpDestroy (c : nat) (rs : list nat)
| OpMap (c : nat) (ps : list (nat * nat))
| OpSnapshot (c : nat) (sn : snapshot)
| OpApply (c : nat)
| OpLeave (c : nat).
Definition sstep (s : server) (o : sop) : res server :=
  match o with
  | OpCreate c sn => process_create s c sn
  | OpDestroy c rs => process_destroy s c rs
  | OpMap c ps => process_update_map s c ps
  | OpSnapshot c sn => receive_snapshot s c sn
  | OpApply c => apply_front s c
  | OpLeave c => destroy_client s c
  end.
Definition srun (s : server) (os : list sop) : res server := foldl (λ rs o, s ← rs; sstep s o) (Ok s) os.
