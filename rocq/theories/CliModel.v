(** Model of a networked client (src/edyn/networking/sys/client_side.cpp): its
    entity map, the entities it reports to the server, the entities it hands to
    the extrapolation worker, and what it does with each packet.

    Simplifications:
    - of the registry only the components named in [cworld] are kept; values of
      the networked components are the subject of ExportModel and OwnModel;
    - the entity graph is the map [cw_edge] from edge entities to their two
      node entities (the graph itself is GraphModel);
    - instants and durations are integers, and half the round trip time is
      stored instead of the whole;
    - the clock synchronisation is its result [cx_sync]: [None] while no sample
      was taken, else the time difference;
    - identifiers are never reused: [registry.create] returns a fresh one
      (EnTT's versions). *)
From Coq Require Import ZArith.
From Verif Require Import Outcome MapModel.
Local Open Scope nat_scope.

(** What the client sends, in the order it is sent: packets to the server
    ([OCreate], [ODestroy], [OMap], [OSync]), messages to the extrapolation
    worker ([OWCreate] with the owned ones among the entities, [OWDestroy],
    [ORequest] with the entities of the snapshot and the start time), states
    applied directly to the simulation ([OSnap]), inputs stored in the history
    ([OInput]) and signals to the user ([OEntered], [OExited], [OAssigned],
    [OInst]). *)
Inductive cout :=
| OCreate (es : list nat) | ODestroy (es : list nat) | OMap (ps : list (nat * nat)) | OSync (r : nat)
| OWCreate (es owned : list nat) | OWDestroy (es : list nat) | ORequest (es : list nat) (t : Z)
| OSnap (es : list nat) | OInput (es : list nat) (t d : Z)
| OEntered (e : nat) | OExited (e : nat) | OAssigned (e : nat) | OInst (e : nat).

(** The registry: valid entities, identifiers handed out so far, entities with
    a networked_tag, entity_owner components, graph_node, graph_edge and
    contact_manifold components, asset_ref (pairs of the asset's own identifier
    and the server's entity, asset_ref.hpp:16-21) and asset_linked_tag. *)
Record cworld := CWorld {
  cw_alive : gset nat;
  cw_next : nat;
  cw_net : gset nat;
  cw_owner : gmap nat (option nat);
  cw_node : gset nat;
  cw_edge : gmap nat (nat * nat);
  cw_man : gset nat;
  cw_asset : gmap nat (list (nat * nat));
  cw_linked : gset nat
}.

Definition set_cw_alive (c : cworld) (x : gset nat) : cworld :=
  CWorld x (cw_next c) (cw_net c) (cw_owner c) (cw_node c) (cw_edge c) (cw_man c) (cw_asset c) (cw_linked c).
Definition set_cw_next (c : cworld) (x : nat) : cworld :=
  CWorld (cw_alive c) x (cw_net c) (cw_owner c) (cw_node c) (cw_edge c) (cw_man c) (cw_asset c) (cw_linked c).
Definition set_cw_net (c : cworld) (x : gset nat) : cworld :=
  CWorld (cw_alive c) (cw_next c) x (cw_owner c) (cw_node c) (cw_edge c) (cw_man c) (cw_asset c) (cw_linked c).
Definition set_cw_owner (c : cworld) (x : gmap nat (option nat)) : cworld :=
  CWorld (cw_alive c) (cw_next c) (cw_net c) x (cw_node c) (cw_edge c) (cw_man c) (cw_asset c) (cw_linked c).
Definition set_cw_node (c : cworld) (x : gset nat) : cworld :=
  CWorld (cw_alive c) (cw_next c) (cw_net c) (cw_owner c) x (cw_edge c) (cw_man c) (cw_asset c) (cw_linked c).
Definition set_cw_edge (c : cworld) (x : gmap nat (nat * nat)) : cworld :=
  CWorld (cw_alive c) (cw_next c) (cw_net c) (cw_owner c) (cw_node c) x (cw_man c) (cw_asset c) (cw_linked c).
Definition set_cw_man (c : cworld) (x : gset nat) : cworld :=
  CWorld (cw_alive c) (cw_next c) (cw_net c) (cw_owner c) (cw_node c) (cw_edge c) x (cw_asset c) (cw_linked c).
Definition set_cw_asset (c : cworld) (x : gmap nat (list (nat * nat))) : cworld :=
  CWorld (cw_alive c) (cw_next c) (cw_net c) (cw_owner c) (cw_node c) (cw_edge c) (cw_man c) x (cw_linked c).
Definition set_cw_linked (c : cworld) (x : gset nat) : cworld :=
  CWorld (cw_alive c) (cw_next c) (cw_net c) (cw_owner c) (cw_node c) (cw_edge c) (cw_man c) (cw_asset c) x.

(** client_network_context.hpp:30-53: this client, the entities it owns, the
    entity map, graph entities made and gone since the last update, networked
    entities the user made and destroyed since the last update, whether the
    client is importing, requests waiting for the next update, the playout
    delay, the clock difference, half the round trip time, the fixed time step
    and whether extrapolation is enabled. *)
Record cctx := CCtx {
  cx_me : option nat;
  cx_owned : gset nat;
  cx_map : emap;
  cx_created : list nat;
  cx_destroyed : list nat;
  cx_ccreated : list nat;
  cx_cdestroyed : list nat;
  cx_importing : bool;
  cx_pending : list (list nat * Z);
  cx_delay : Z;
  cx_sync : option Z;
  cx_hrtt : Z;
  cx_dt : Z;
  cx_extr : bool
}.

Definition set_cx_me (c : cctx) (x : option nat) : cctx :=
  CCtx x (cx_owned c) (cx_map c) (cx_created c) (cx_destroyed c) (cx_ccreated c) (cx_cdestroyed c) (cx_importing c) (cx_pending c) (cx_delay c) (cx_sync c) (cx_hrtt c) (cx_dt c) (cx_extr c).
Definition set_cx_owned (c : cctx) (x : gset nat) : cctx :=
  CCtx (cx_me c) x (cx_map c) (cx_created c) (cx_destroyed c) (cx_ccreated c) (cx_cdestroyed c) (cx_importing c) (cx_pending c) (cx_delay c) (cx_sync c) (cx_hrtt c) (cx_dt c) (cx_extr c).
Definition set_cx_map (c : cctx) (x : emap) : cctx :=
  CCtx (cx_me c) (cx_owned c) x (cx_created c) (cx_destroyed c) (cx_ccreated c) (cx_cdestroyed c) (cx_importing c) (cx_pending c) (cx_delay c) (cx_sync c) (cx_hrtt c) (cx_dt c) (cx_extr c).
Definition set_cx_created (c : cctx) (x : list nat) : cctx :=
  CCtx (cx_me c) (cx_owned c) (cx_map c) x (cx_destroyed c) (cx_ccreated c) (cx_cdestroyed c) (cx_importing c) (cx_pending c) (cx_delay c) (cx_sync c) (cx_hrtt c) (cx_dt c) (cx_extr c).
Definition set_cx_destroyed (c : cctx) (x : list nat) : cctx :=
  CCtx (cx_me c) (cx_owned c) (cx_map c) (cx_created c) x (cx_ccreated c) (cx_cdestroyed c) (cx_importing c) (cx_pending c) (cx_delay c) (cx_sync c) (cx_hrtt c) (cx_dt c) (cx_extr c).
Definition set_cx_ccreated (c : cctx) (x : list nat) : cctx :=
  CCtx (cx_me c) (cx_owned c) (cx_map c) (cx_created c) (cx_destroyed c) x (cx_cdestroyed c) (cx_importing c) (cx_pending c) (cx_delay c) (cx_sync c) (cx_hrtt c) (cx_dt c) (cx_extr c).
Definition set_cx_cdestroyed (c : cctx) (x : list nat) : cctx :=
  CCtx (cx_me c) (cx_owned c) (cx_map c) (cx_created c) (cx_destroyed c) (cx_ccreated c) x (cx_importing c) (cx_pending c) (cx_delay c) (cx_sync c) (cx_hrtt c) (cx_dt c) (cx_extr c).
Definition set_cx_importing (c : cctx) (x : bool) : cctx :=
  CCtx (cx_me c) (cx_owned c) (cx_map c) (cx_created c) (cx_destroyed c) (cx_ccreated c) (cx_cdestroyed c) x (cx_pending c) (cx_delay c) (cx_sync c) (cx_hrtt c) (cx_dt c) (cx_extr c).
Definition set_cx_pending (c : cctx) (x : list (list nat * Z)) : cctx :=
  CCtx (cx_me c) (cx_owned c) (cx_map c) (cx_created c) (cx_destroyed c) (cx_ccreated c) (cx_cdestroyed c) (cx_importing c) x (cx_delay c) (cx_sync c) (cx_hrtt c) (cx_dt c) (cx_extr c).
Definition set_cx_delay (c : cctx) (x : Z) : cctx :=
  CCtx (cx_me c) (cx_owned c) (cx_map c) (cx_created c) (cx_destroyed c) (cx_ccreated c) (cx_cdestroyed c) (cx_importing c) (cx_pending c) x (cx_sync c) (cx_hrtt c) (cx_dt c) (cx_extr c).
Definition set_cx_sync (c : cctx) (x : option Z) : cctx :=
  CCtx (cx_me c) (cx_owned c) (cx_map c) (cx_created c) (cx_destroyed c) (cx_ccreated c) (cx_cdestroyed c) (cx_importing c) (cx_pending c) (cx_delay c) x (cx_hrtt c) (cx_dt c) (cx_extr c).
Definition set_cx_hrtt (c : cctx) (x : Z) : cctx :=
  CCtx (cx_me c) (cx_owned c) (cx_map c) (cx_created c) (cx_destroyed c) (cx_ccreated c) (cx_cdestroyed c) (cx_importing c) (cx_pending c) (cx_delay c) (cx_sync c) x (cx_dt c) (cx_extr c).
Definition set_cx_dt (c : cctx) (x : Z) : cctx :=
  CCtx (cx_me c) (cx_owned c) (cx_map c) (cx_created c) (cx_destroyed c) (cx_ccreated c) (cx_cdestroyed c) (cx_importing c) (cx_pending c) (cx_delay c) (cx_sync c) (cx_hrtt c) x (cx_extr c).
Definition set_cx_extr (c : cctx) (x : bool) : cctx :=
  CCtx (cx_me c) (cx_owned c) (cx_map c) (cx_created c) (cx_destroyed c) (cx_ccreated c) (cx_cdestroyed c) (cx_importing c) (cx_pending c) (cx_delay c) (cx_sync c) (cx_hrtt c) (cx_dt c) x.

Record cst := CSt { c_w : cworld; c_k : cctx; c_out : list cout }.
Definition set_w (s : cst) (x : cworld) : cst := CSt x (c_k s) (c_out s).
Definition set_k (s : cst) (x : cctx) : cst := CSt (c_w s) x (c_out s).
(** publish a packet or a signal, or send a message *)
Definition emit (s : cst) (o : cout) : cst := CSt (c_w s) (c_k s) (c_out s ++ [o]).

Definition valid (s : cst) (e : nat) : bool := bool_decide (e ∈ cw_alive (c_w s)).
(** An update of one registry or context field. *)
Definition on_map (s : cst) (f : emap → res emap) : res cst :=
  m ← f (cx_map (c_k s)); Ok (set_k s (set_cx_map (c_k s) m)).
Definition importing (s : cst) (b : bool) : cst := set_k s (set_cx_importing (c_k s) b).

(** registry.create() *)
Definition c_create (s : cst) : cst * nat :=
  let w := c_w s in
  let e := cw_next w in
  (set_w s (set_cw_next (set_cw_alive w ({[e]} ∪ cw_alive w)) (S e)), e).

(** on_construct_shared, client_side.cpp:49-52 *)
Definition on_construct_shared (s : cst) (e : nat) : cst :=
  set_k s (set_cx_created (c_k s) (cx_created (c_k s) ++ [e])).
(** on_destroy_shared, client_side.cpp:54-58, without the input history *)
Definition on_destroy_shared (s : cst) (e : nat) : cst :=
  set_k s (set_cx_destroyed (c_k s) (cx_destroyed (c_k s) ++ [e])).
(** on_construct_networked_entity, client_side.cpp:60-66 *)
Definition on_construct_net (s : cst) (e : nat) : cst :=
  if cx_importing (c_k s) then s
  else set_k s (set_cx_ccreated (c_k s) (cx_ccreated (c_k s) ++ [e])).
(** on_destroy_networked_entity, client_side.cpp:68-78: the map is asked for
    the local entity, although it is keyed by the server's entities. *)
Definition on_destroy_net (s : cst) (e : nat) : res cst :=
  if cx_importing (c_k s) then Ok s else
  s ← (if em_contains (cx_map (c_k s)) e then on_map s (λ m, em_erase m e) else Ok s);
  Ok (set_k s (set_cx_cdestroyed (c_k s) (cx_cdestroyed (c_k s) ++ [e]))).
(** on_construct_entity_owner, client_side.cpp:80-87; a second [push] of the
    same entity into the sparse set is UB. *)
Definition on_construct_owner (s : cst) (e : nat) (o : option nat) : res cst :=
  if bool_decide (o = cx_me (c_k s)) then
    _ ← require_ (bool_decide (e ∉ cx_owned (c_k s)));
    Ok (set_k s (set_cx_owned (c_k s) ({[e]} ∪ cx_owned (c_k s))))
  else Ok s.
(** on_destroy_entity_owner, client_side.cpp:89-96; [erase] of a missing entity
    is UB. *)
Definition on_destroy_owner (s : cst) (e : nat) (o : option nat) : res cst :=
  if bool_decide (o = cx_me (c_k s)) then
    _ ← require_ (bool_decide (e ∈ cx_owned (c_k s)));
    Ok (set_k s (set_cx_owned (c_k s) (cx_owned (c_k s) ∖ {[e]})))
  else Ok s.

(** registry.emplace of each component: the entity must be valid and must not
    have the component. *)
Definition put_net (s : cst) (e : nat) : res cst :=
  _ ← require_ (valid s e && bool_decide (e ∉ cw_net (c_w s)));
  Ok (on_construct_net (set_w s (set_cw_net (c_w s) ({[e]} ∪ cw_net (c_w s)))) e).
Definition put_owner (s : cst) (e : nat) (o : option nat) : res cst :=
  _ ← require_ (valid s e && bool_decide (cw_owner (c_w s) !! e = None));
  on_construct_owner (set_w s (set_cw_owner (c_w s) (<[e := o]> (cw_owner (c_w s))))) e o.
Definition is_shared (s : cst) (e : nat) : bool :=
  bool_decide (e ∈ cw_node (c_w s)) || bool_decide (is_Some (cw_edge (c_w s) !! e)).
Definition put_node (s : cst) (e : nat) : res cst :=
  _ ← require_ (valid s e && negb (is_shared s e));
  Ok (on_construct_shared (set_w s (set_cw_node (c_w s) ({[e]} ∪ cw_node (c_w s)))) e).
(** An edge needs the graph_node of both bodies. *)
Definition put_edge (s : cst) (e a b : nat) : res cst :=
  _ ← require_ (valid s e && negb (is_shared s e));
  _ ← require_ (bool_decide (a ∈ cw_node (c_w s)) && bool_decide (b ∈ cw_node (c_w s)));
  Ok (on_construct_shared (set_w s (set_cw_edge (c_w s) (<[e := (a, b)]> (cw_edge (c_w s))))) e).
Definition put_asset (s : cst) (e : nat) (a : list (nat * nat)) : res cst :=
  _ ← require_ (valid s e && bool_decide (cw_asset (c_w s) !! e = None));
  Ok (set_w s (set_cw_asset (c_w s) (<[e := a]> (cw_asset (c_w s))))).
Definition put_linked (s : cst) (e : nat) : res cst :=
  _ ← require_ (valid s e && bool_decide (e ∉ cw_linked (c_w s)));
  Ok (set_w s (set_cw_linked (c_w s) ({[e]} ∪ cw_linked (c_w s)))).

(** registry.destroy of an entity whose edges are gone: the signals of every
    component it has, then all components and the entity itself. *)
Definition strip (w : cworld) (e : nat) : cworld :=
  CWorld (cw_alive w ∖ {[e]}) (cw_next w) (cw_net w ∖ {[e]}) (delete e (cw_owner w)) (cw_node w ∖ {[e]})
         (delete e (cw_edge w)) (cw_man w ∖ {[e]}) (delete e (cw_asset w)) (cw_linked w ∖ {[e]}).
Definition destroy_one (s : cst) (e : nat) : res cst :=
  let w := c_w s in
  s ← (match cw_owner w !! e with Some o => on_destroy_owner s e o | None => Ok s end);
  s ← (if bool_decide (e ∈ cw_net w) then on_destroy_net s e else Ok s);
  let s := if is_shared s e then on_destroy_shared s e else s in
  Ok (set_w s (strip (c_w s) e)).
Fixpoint destroy_list (s : cst) (es : list nat) : res cst :=
  match es with
  | [] => Ok s
  | e :: es => s ← destroy_one s e; destroy_list s es
  end.
(** Edges at a node, visited by island_manager::on_destroy_graph_node
    (island_manager.cpp:47-66). *)
Definition edges_at (w : cworld) (e : nat) : list nat :=
  (filter (λ p, p.2.1 = e ∨ p.2.2 = e) (map_to_list (cw_edge w))).*1.
(** registry.destroy; destroying an entity that is not valid is UB.  Destroying
    a node destroys its edges first. *)
Definition c_destroy (s : cst) (e : nat) : res cst :=
  _ ← require_ (valid s e);
  s ← (if bool_decide (e ∈ cw_node (c_w s)) then destroy_list s (edges_at (c_w s) e) else Ok s);
  destroy_one s e.

(** ** What the user does *)
(** [UBody]/[UEdge]/[UManifold] stand for the part of make_rigidbody,
    make_constraint and the collision detection that concerns this model: the
    graph_node, the graph_edge, and the contact_manifold with its edge. *)
Inductive uop :=
| UCreate | UTag (e : nat) | UNode (e : nat) | UEdge (e a b : nat) | UManifold (e a b : nat)
| UDestroy (e : nat) | UReady (a : nat) | ULink (a : nat) (f : list (nat * nat)).

(** client_link_asset_impl, client_side.cpp:905-922: the loop over the asset's
    entries; [f] is the user's map from asset identifiers to local entities,
    [at] of a missing key throws. *)
Definition assoc (f : list (nat * nat)) (i : nat) : res nat :=
  match list_find (λ p, p.1 = i) f with Some (_, (_, e)) => Ok e | None => UB end.
Fixpoint link_entries (s : cst) (f : list (nat * nat)) (own : option nat) (es : list (nat * nat)) : res (cst * list (nat * nat)) :=
  match es with
  | [] => Ok (s, [])
  | (i, r) :: es =>
    l ← assoc f i;
    s ← on_map s (λ m, em_insert m r l);
    s ← put_net s l;
    s ← (match own with Some c => put_owner s l (Some c) | None => Ok s end);
    '(s, ps) ← link_entries s f own es;
    Ok (s, (r, l) :: ps)
  end.
(** client_link_asset_impl, client_side.cpp:889-930 *)
Definition link_asset (s : cst) (a : nat) (f : list (nat * nat)) : res cst :=
  es ← opt_res (cw_asset (c_w s) !! a);
  let own := match cw_owner (c_w s) !! a with Some o => o | None => None end in
  let prev := cx_importing (c_k s) in
  '(s, ps) ← link_entries (importing s true) f own es;
  s ← put_linked s a;
  Ok (emit (importing s prev) (OMap ps)).
(** client_asset_ready, client_side.cpp:882-887 *)
Definition asset_ready (s : cst) (a : nat) : res cst :=
  r ← em_at_local (cx_map (c_k s)) a; Ok (emit s (OSync r)).

Definition ustep (s : cst) (o : uop) : res cst :=
  match o with
  | UCreate => Ok (c_create s).1
  | UTag e => put_net s e
  | UNode e => put_node s e
  | UEdge e a b => put_edge s e a b
  | UManifold e a b =>
    s ← put_edge s e a b;
    Ok (set_w s (set_cw_man (c_w s) ({[e]} ∪ cw_man (c_w s))))
  | UDestroy e => c_destroy s e
  | UReady a => asset_ready s a
  | ULink a f => link_asset s a f
  end.
Fixpoint uruns (s : cst) (os : list uop) : res cst :=
  match os with [] => Ok s | o :: os => s ← ustep s o; uruns s os end.

(** ** Packets *)
(** client_created, client_side.cpp:389-405 *)
Definition recv_client (s : cst) (r : nat) : res cst :=
  let '(s, l) := c_create s in
  _ ← assert_ (bool_decide (cx_me (c_k s) = None));
  let s := set_k s (set_cx_me (c_k s) (Some l)) in
  s ← on_map s (λ m, em_insert m r l);
  Ok (emit (emit s (OMap [(r, l)])) (OAssigned l)).

(** update_entity_map, client_side.cpp:407-410 and
    process_update_entity_map_packet.cpp:6-15: pairs of a local entity and the
    server's entity. *)
Fixpoint recv_map (s : cst) (ps : list (nat * nat)) : res cst :=
  match ps with
  | [] => Ok s
  | (l, r) :: ps =>
    s ← (if valid s l then on_map s (λ m, em_insert m r l) else Ok s);
    recv_map s ps
  end.

(** An entity of a create_entity packet: the server's identifier and, of its
    components, networked_tag, rigidbody_tag or external_tag, entity_owner and
    the bodies of a constraint. *)
Record centry := CEntry {
  ce_r : nat; ce_net : bool; ce_body : bool; ce_owner : option (option nat); ce_con : option (nat * nat)
}.
(** map_child_entity.hpp:15-30: references the map does not know become null. *)
Definition to_local (s : cst) (o : option nat) : option nat :=
  r ← o; em_map (cx_map (c_k s)) !! r.

(** client_side.cpp:454-462 *)
Fixpoint create_unknown (s : cst) (rs : list nat) : res (cst * list (nat * nat)) :=
  match rs with
  | [] => Ok (s, [])
  | r :: rs =>
    if em_contains (cx_map (c_k s)) r then create_unknown s rs else
    let '(s, l) := c_create s in
    s ← on_map s (λ m, em_insert m r l);
    '(s, ps) ← create_unknown s rs;
    Ok (s, (r, l) :: ps)
  end.
(** client_snapshot_importer.hpp:25-63: entities without a valid local
    counterpart are passed over; a component the entity has is replaced.  Here
    the components of one entity are imported before those of the next (in the
    code, one component type before the next), which reaches the same state.
    A replaced entity_owner runs no handler of the client: only construction
    and destruction are observed (client_side.cpp:140-143). *)
Definition import_one (s : cst) (c : centry) : res cst :=
  match em_map (cx_map (c_k s)) !! ce_r c with
  | None => Ok s
  | Some l =>
    if negb (valid s l) then Ok s else
    s ← (if ce_net c && bool_decide (l ∉ cw_net (c_w s)) then put_net s l else Ok s);
    match ce_owner c with
    | None => Ok s
    | Some o =>
      let o := to_local s o in
      if bool_decide (is_Some (cw_owner (c_w s) !! l))
      then Ok (set_w s (set_cw_owner (c_w s) (<[l := o]> (cw_owner (c_w s)))))
      else put_owner s l o
    end
  end.
Fixpoint import_all (s : cst) (cs : list centry) : res cst :=
  match cs with [] => Ok s | c :: cs => s ← import_one s c; import_all s cs end.
(** client_side.cpp:479-537, for an entity created by this packet: the tag all
    remote entities have, and the graph node of bodies and external entities. *)
Definition finish_created (s : cst) (l : nat) (body : bool) : res cst :=
  s ← (if bool_decide (l ∈ cw_net (c_w s)) then Ok s else put_net s l);
  if body && negb (is_shared s l) then put_node s l else Ok s.
Fixpoint finish_all (s : cst) (cs : list centry) (new : list (nat * nat)) : res cst :=
  match new with
  | [] => Ok s
  | (r, l) :: new =>
    s ← finish_created s l (existsb (λ c, bool_decide (ce_r c = r) && ce_body c) cs);
    finish_all s cs new
  end.
(** client_side.cpp:412-432, 539-545: the edge of a constraint, unless it
    exists; the bodies must be known (a null body has no graph_node). *)
Fixpoint edges_all (s : cst) (cs : list centry) : res cst :=
  match cs with
  | [] => Ok s
  | c :: cs =>
    l ← em_at (cx_map (c_k s)) (ce_r c);
    s ← (match ce_con c with
         | Some (a, b) =>
           if negb (valid s l) || bool_decide (is_Some (cw_edge (c_w s) !! l)) then Ok s else
           a ← opt_res (to_local s (Some a));
           b ← opt_res (to_local s (Some b));
           put_edge s l a b
         | None => Ok s
         end);
    edges_all s cs
  end.
(** create_entity, client_side.cpp:447-548 *)
Definition recv_create (s : cst) (cs : list centry) : res cst :=
  '(s, new) ← create_unknown s (ce_r <$> cs);
  let s := match new with [] => s | _ => emit s (OMap new) end in
  s ← import_all (importing s true) cs;
  s ← finish_all s cs new;
  s ← edges_all s cs;
  Ok (importing s false).

(** client_side.cpp:564-575: the entries of an asset; [at] of an entry the map
    does not know throws. *)
Fixpoint destroy_entries (s : cst) (es : list (nat * nat)) : res cst :=
  match es with
  | [] => Ok s
  | (_, r) :: es =>
    l ← em_at (cx_map (c_k s)) r;
    s ← on_map s (λ m, em_erase m r);
    s ← (if valid s l then c_destroy s l else Ok s);
    destroy_entries s es
  end.
(** client_side.cpp:556-579: one entity of the packet *)
Definition destroy_remote (s : cst) (r : nat) : res cst :=
  match em_map (cx_map (c_k s)) !! r with
  | None => Ok s
  | Some l =>
    s ← on_map s (λ m, em_erase m r);
    if negb (valid s l) then Ok s else
    s ← (match cw_asset (c_w s) !! l with Some es => destroy_entries s es | None => Ok s end);
    c_destroy s l
  end.
Fixpoint destroy_remotes (s : cst) (rs : list nat) : res cst :=
  match rs with [] => Ok s | r :: rs => s ← destroy_remote s r; destroy_remotes s rs end.
(** notify_remote_entities_exited, client_side.cpp:584-593 *)
Definition notify_exited (s : cst) (rs : list nat) : cst :=
  foldl (λ s r, match em_map (cx_map (c_k s)) !! r with Some l => emit s (OExited l) | None => s end) s rs.
(** destroy_entity and entity_exited, client_side.cpp:550-603 *)
Definition recv_destroy (s : cst) (rs : list nat) : res cst :=
  s ← destroy_remotes (importing (notify_exited s rs) true) rs;
  Ok (importing s false).

(** An entry of an entity_entered packet: the server's entity, the entries of
    its asset, its owner, and what the user's handler of the signal does. *)
Record nentry := NEntry { ne_r : nat; ne_asset : list (nat * nat); ne_owner : option nat; ne_user : list uop }.
(** client_side.cpp:628-643 *)
Definition enter_owner (s : cst) (l : nat) (o : option nat) : res (cst * list (nat * nat)) :=
  match o with
  | None => Ok (s, [])
  | Some ro =>
    match em_map (cx_map (c_k s)) !! ro with
    | Some lo => s ← put_owner s l (Some lo); Ok (s, [])
    | None =>
      let '(s, lo) := c_create s in
      s ← on_map s (λ m, em_insert m ro lo);
      s ← put_owner s l (Some lo);
      Ok (s, [(ro, lo)])
    end
  end.
(** client_side.cpp:614-661; the state loaded for a linked asset is not kept *)
Fixpoint enter_all (s : cst) (es : list nentry) : res (cst * list (nat * nat)) :=
  match es with
  | [] => Ok (s, [])
  | n :: es =>
    if em_contains (cx_map (c_k s)) (ne_r n) then enter_all s es else
    let '(s, l) := c_create s in
    s ← on_map s (λ m, em_insert m (ne_r n) l);
    s ← put_asset s l (ne_asset n);
    s ← put_net s l;
    '(s, ps) ← enter_owner s l (ne_owner n);
    s ← uruns (emit s (OEntered l)) (ne_user n);
    _ ← require_ (valid s l);
    '(s, qs) ← enter_all s es;
    Ok (s, (ne_r n, l) :: ps ++ qs)
  end.
(** entity_entered, client_side.cpp:605-670 *)
Definition recv_entered (s : cst) (es : list nentry) : res cst :=
  '(s, ps) ← enter_all (importing s true) es;
  let s := match ps with [] => s | _ => emit s (OMap ps) end in
  Ok (importing s false).

(** contains_unknown_entities, client_side.cpp:672-692 *)
Definition unknown (s : cst) (r : nat) : bool :=
  match em_map (cx_map (c_k s)) !! r with None => true | Some l => negb (valid s l) end.
(** registry_snapshot, client_side.cpp:694-802, received at [now] with the
    server's time stamp [ts]; [some] says that the packet has pools. *)
Definition recv_snapshot (s : cst) (now ts : Z) (rs : list nat) (some : bool) : res cst :=
  if existsb (unknown s) rs then Ok s else
  let k := c_k s in
  let ls := omap (λ r, em_map (cx_map k) !! r) rs in
  let '(t, d) := match cx_sync k with
    | Some d => ((ts + d - cx_delay k)%Z, d)
    | None => ((now - (cx_hrtt k + cx_delay k))%Z, (now - (ts + cx_hrtt k))%Z)
    end in
  let un := remove_dups (filter (λ e, e ∉ cx_owned k) ls) in
  let s := match un with [] => s | _ => emit s (OInput un t d) end in
  if negb (bool_decide (now - t > cx_dt k)%Z) || negb (cx_extr k)
  then Ok (if some then emit s (OSnap ls) else s)
  else Ok (set_k s (set_cx_pending k (cx_pending k ++ [(ls, t)]))).

(** asset_sync_response, client_side.cpp:850-861: the user's handler of the
    signal runs at the end, so what it does is the [CUser] steps that follow;
    the state loaded afterwards is not kept. *)
Definition recv_sync (s : cst) (r : nat) : res cst :=
  l ← em_at (cx_map (c_k s)) r;
  Ok (emit s (OInst l)).

(** ** update_network_client, client_side.cpp:368-387 *)
(** process_client_created_entities, client_side.cpp:255-277.  registry.insert
    needs valid entities without the component.  The owner handler runs once
    for each. *)
Fixpoint insert_owner (s : cst) (es : list nat) : res cst :=
  match es with
  | [] => Ok s
  | e :: es => s ← put_owner s e (cx_me (c_k s)); insert_owner s es
  end.
Definition upd_ccreated (s : cst) : res cst :=
  match cx_ccreated (c_k s) with
  | [] => Ok s
  | es =>
    s ← insert_owner s es;
    let s := emit s (OCreate es) in
    Ok (set_k s (set_cx_ccreated (c_k s) []))
  end.
(** process_client_destroyed_entities, client_side.cpp:288-299 *)
Definition upd_cdestroyed (s : cst) : cst :=
  match cx_cdestroyed (c_k s) with
  | [] => s
  | es => let s := emit s (ODestroy es) in set_k s (set_cx_cdestroyed (c_k s) [])
  end.
(** process_created_entities, client_side.cpp:223-253 *)
Definition upd_created (s : cst) : cst :=
  let es := filter (λ e, valid s e && negb (bool_decide (e ∈ cw_man (c_w s)))) (cx_created (c_k s)) in
  match es with
  | [] => set_k s (set_cx_created (c_k s) [])
  | _ =>
    let ow := filter (λ e, e ∈ cx_owned (c_k s)) es in
    let s := emit s (OWCreate es ow) in
    set_k s (set_cx_created (c_k s) [])
  end.
(** process_destroyed_entities, client_side.cpp:279-286 *)
Definition upd_destroyed (s : cst) : cst :=
  match cx_destroyed (c_k s) with
  | [] => s
  | es => let s := emit s (OWDestroy es) in set_k s (set_cx_destroyed (c_k s) [])
  end.
(** dispatch_extrapolations, client_side.cpp:301-319 *)
Definition upd_requests (s : cst) : cst :=
  let s' := foldl (λ s q, emit s (ORequest q.1 q.2)) s (cx_pending (c_k s)) in
  set_k s' (set_cx_pending (c_k s') []).
Definition c_update (s : cst) : res cst :=
  s ← upd_ccreated s;
  Ok (upd_requests (upd_destroyed (upd_created (upd_cdestroyed s)))).

(** ** Executions *)
Inductive cop :=
| CUser (o : uop) | CUpdate
| CClient (r : nat) | CMap (ps : list (nat * nat)) | CCreate (cs : list centry)
| CDestroy (rs : list nat) | CEntered (es : list nentry)
| CSnapshot (now ts : Z) (rs : list nat) (some : bool) | CSyncRes (r : nat)
| CDelay (d : Z) | CClock (d : Z) | CSettings (dt : Z).
(** set_playout_delay, client_side.cpp:804-807; server_settings (fixed_dt only),
    client_side.cpp:823-839; [CClock] is a new estimate of the clock difference
    (client_side.cpp:816-821, ClockModel). *)
Definition cstep (s : cst) (o : cop) : res cst :=
  match o with
  | CUser o => ustep s o
  | CUpdate => c_update s
  | CClient r => recv_client s r
  | CMap ps => recv_map s ps
  | CCreate cs => recv_create s cs
  | CDestroy rs => recv_destroy s rs
  | CEntered es => recv_entered s es
  | CSnapshot now ts rs some => recv_snapshot s now ts rs some
  | CSyncRes r => recv_sync s r
  | CDelay d => Ok (set_k s (set_cx_delay (c_k s) d))
  | CClock d => Ok (set_k s (set_cx_sync (c_k s) (Some d)))
  | CSettings dt => Ok (set_k s (set_cx_dt (c_k s) dt))
  end.
Fixpoint crun (s : cst) (os : list cop) : res cst :=
  match os with [] => Ok s | o :: os => s ← cstep s o; crun s os end.

(** init_network_client, client_side.cpp:136-169, over an empty registry *)
Definition cinit (delay hrtt dt : Z) (extr : bool) : cst :=
  CSt (CWorld ∅ 0 ∅ ∅ ∅ ∅ ∅ ∅ ∅)
      (CCtx None ∅ em_empty [] [] [] [] false [] delay None hrtt dt extr) [].
