# A Rocq model of edyn

This directory holds a machine-checked model of parts of xissburg/edyn (source
in `/repo`, read as text, never built here) and proofs of the properties listed
in `properties.jsonl`.

## Layout

* `properties.jsonl`: the properties, in terms of the API.
* `MANIFEST.json`: property -> theorems -> status.
* `rocq/theories/<Part>Model.v`: executable Gallina transcription of the code.
  Every definition cites file and lines. No proofs.
* `rocq/theories/<Part>Spec.v`: the independent specification (abstract
  multigraph, set, map, list, path relation ...). It does not mention the model.
* `rocq/theories/<Part>Proofs.v`: invariants and lemmas.
* `rocq/theories/<Part>Props.v`: the property theorems, each closed by
  `exact lemma`, followed by `Print Assumptions`, next to non-vacuity examples.
* `seeded/LOG.jsonl`: mutation tests of the theorems.

## Modelling conventions

* **Outcomes.** Functions that can trip `EDYN_ASSERT` (an `assert`, active
  unless `EDYN_DISABLE_ASSERT`), index out of range, dereference null, or loop
  return `res A := Ok a | AssertFail | UB | NoFuel` (`Outcome.v`). Loops follow the
  code with explicit fuel; theorems establish `Ok`, so `NoFuel` never hides
  non-termination.
* **Null index** (`SIZE_MAX` / `UINT32_MAX`) is `None : option nat`. Indices are
  unbounded `nat`: index-type overflow (2^64 elements) is outside the model.
* **Entities** are opaque identifiers (`nat`), `entt::null` is a distinguished
  value or `None`.
* **Scalars.** When control flow depends on floating point arithmetic the model
  takes the operations as parameters with no laws, so structural theorems hold
  for every arithmetic including NaN. Where an order is needed the hypotheses
  are explicit premises of the theorem (total order), and an instance is shown.
  Rounding is never assumed away silently: statements that need exact
  arithmetic are stated over `Z`/`Q`.
* **EnTT registry**: components are finite maps from entity; signals are called
  where the code connects them. EnTT itself is trusted to behave as documented.
* **Concurrency** is modelled by interleaving (sequentially consistent) small
  steps at the granularity of the atomic operations and critical sections.
* A property found to be false of the code is proved false
  (`..._refuted`, an explicit witness) and the strongest true form is proved.

## Properties, models and proofs

| id | model | how it is proved |
|----|-------|-------|
| C01 | free_list x3 + every entity_graph mutator/observer (`GraphModel.v`) | representation invariant, refinement to an abstract multigraph by induction on the call history |
| C02 | free_list (`FreeListModel.v`) | invariant (free chain disjoint from live slots), refinement to a finite map |
| C03-C05 | connected_components, is_single_connected_component, traverse, reach | invariant on visited set and worklist; specification by an inductive path relation |
| C06 | clear | ghost theorem for every later history, and a witness |
| C07-C09 | dynamic_tree, query_tree (`TreeModel.v`, `BoxModel.v`) | representation invariant by an inductive tree; abstract map of leaves |
| C10 | static_tree (`StaticModel.v`) | recursion on the range; permutation; exact query |
| C11, C21 | contact_manifold_map, entity_map (`MapModel.v`) | refinement to a set of unordered pairs / a partial bijection |
| C12 | exclude_collision, should_collide (`ExclModel.v`) | invariant by induction on calls |
| C13, C14, C45 | contact points, insertion_point_index, process_collision, narrowphase (`PointModel.v`) | linked-list invariant; case analysis for every geometry; simulation parallel/sequential |
| C54-C56 | vectors, quaternions, matrices, frames over the reals (`GeoModel.v`) | algebra against an independent definition of rotation (`RotSpec.v`) |
| C57-C59 | volumes, centroids, moments of inertia, centre of mass (`MassModel.v`) | integrals over solids (`MassSpec.v`, Coquelicot's Riemann integral); edge cancellation on closed meshes; induction on histories |
| C60-C62 | closest points of lines, segments, discs and boxes, circles in the plane (`NearModel.v`) | sets of points and nearest pairs (`NearSpec.v`); convexity of the squared distance and the slope at clamped parameters |
| C63-C68 | raycasts against spheres, boxes, polyhedra, cylinders, capsules, planes, meshes, compounds and all bodies (`RayModel.v`) | first points of lines, half-lines and segments in sets of points, outward normals (`RaySpec.v`); quadratic forms for round shapes, interval clipping for flat ones, induction over faces, triangles, parts and bodies |
| C69-C71 | bounding boxes of shapes, compounds and islands, turned boxes, support points and values (`SupModel.v`) | support values of sets of points, least boxes (`SupSpec.v`); Cauchy's inequality for round shapes, induction over vertices, parts and nodes; a counting measure for the climb over neighbours |
| C72-C76 | contact points of spheres, capsules, boxes, cylinders, planes and compounds, support features of boxes (`ColModel.v`) | what a contact point says about two sets of points (`ColSpec.v`); separating directions of nearest pairs of convex sets; the tables of a box by cases; induction over parts |
| C77-C82 | Jacobians, errors and angles of every constraint, impulses along rows, cones, position corrections (`JacModel.v`) | momentum, rates of change along motions, demands, kept angles, gradients (`JacSpec.v`); derivatives of rotating vectors; congruence of angles by induction over steps |
| C83-C87 | The networked client: entity map, reports, owners, worker messages, packets and updates (`CliModel.v`) | readings of what is sent, counterparts, owners, worker entities (`CliSpec.v`); every action is a run of small changes, invariants of which are lifted to all executions (`CliProofs*.v`); no axioms |
| C88-C91 | Segments, rectangles, polygons and hulls in the plane (`PlaneModel.v`) | points, sides, distances, extremes (`PlaneSpec.v`); supporting directions of the ends of a side as invariant of the recursion of the hull |
| C92-C93 | Presentation delay and presented transforms (`PresModel.v`) | observed lags, mean and spread, remaining offsets (`PresSpec.v`); invariants of the samples and the delay over executions |
| C94-C96 | Triangle meshes: edges, normals, convexity, values on faces and edges (`TmeshModel.v`) | sides with the same ends, winding, faces with a side (`TmeshSpec.v`); invariant of the edges over the sides visited |
| C97-C98 | Convex meshes: edges, neighbors, normals, relevant directions, validation (`CmeshModel.v`) | corners and sides of faces, faces with given ends (`CmeshSpec.v`); invariant of the edges over the sides visited |
| C15 | swap and flip functions (`SwapModel.v`) | algebra |
| C16, C17 | task.cpp (`TaskModel.v`) | interleaving semantics, inductive invariant, ranking function |
| C18-C20 | job_queue, worker, job_dispatcher, message queues (`JobModel.v`, `MsgModel.v`) | interleaving semantics, inductive invariants, witness schedules |
| C22, C23 | registry_operation, builder, observer, map_child_entity (`RegModel.v`) | simulation between two registries; allocator invariant |
| C24, C25 | memory archives, std_s11n (`S11nModel.v`) | induction on a deep embedding of the types |
| C26 | clock_sync (`ClockModel.v`) | invariant on exchanges; interval arithmetic over Q |
| C27-C29, C46 | action_history, input_state_history, server queues (`HistModel.v`) | induction on histories |
| C30 | exporter_modified_components (`ModModel.v`) | invariant by induction on updates |
| C31 | pool_snapshot, registry_snapshot, client_snapshot_importer (`SnapModel.v`) | composition of round trips; induction on pools |
| C32 | update/process_aabbs_of_interest (`AoiModel.v`) | induction on histories against the set the client knows |
| C33 | server_side packets, server_snapshot_importer (`OwnModel.v`) | frame conditions on the world, island reach through C05 |
| C34 | calculate_client_playout_delay (`DelayModel.v`) | arithmetic over Q, induction |
| C35 | stepper_sequential, simulation_worker time (`StepModel.v`) | arithmetic over Q, induction on updates |
| C36 | paged_triangle_mesh cache (`PageModel.v`) | invariant by induction on visits |
| C37, C38 | island_manager on the graph of C01 (`IslModel.v`) | invariant against the path relation of C03, induction on histories |
| C39, C47-C50 | the ten constraint types, rows, island solver (`RowModel.v`, `JointModel.v`) | lens-style store/prepare correspondence, invariants by induction on iterations, field algebra |
| C40 | material_mix_table, unordered_pair (`MixModel.v`) | comparator-driven search tree |
| C41, C43 | flat_nested_array, child lists (`FlatModel.v`, `ChildModel.v`) | refinement to lists |
| C42 | asynchronous raycasts and box queries (`AskModel.v`) | protocol invariant over all interleavings |
| C44, C51 | extrapolation_worker thread and its time keeping (`ExtrModel.v`, `ExtrTime.v`) | interleaving semantics; induction on the clock |
| C52 | island_solver state machine (`ParModel.v`) | confluence of independent islands over all schedules |
| C53 | broadphase on the trees of C07 and the map of C11 (`BroadModel.v`) | invariant linking registry, trees and manifolds over all histories; simulation parallel/sequential |

The exact files and lines of each function are cited in the comments of the
model files.

## Trusted base

* Coq 8.16.1's kernel (and its `vm_compute`, used for witnesses).
* The reading of the C++ recorded in the comments of the model files.
* EnTT, the C++ standard library and the compiler behave as documented.
* `Print Assumptions` follows every property theorem in the `*Props.v` files.
  Every one of C01-C53 prints "Closed under the global context".
* The theorems over the real numbers (C54 on, and the instance in `RowCases.v`)
  use the axioms of the standard library's reals and nothing else:
  `ClassicalDedekindReals.sig_forall_dec`, `ClassicalDedekindReals.sig_not_dec`,
  `FunctionalExtensionality.functional_extensionality_dep` and
  `Classical_Prop.classic`.

## What the theorems found false

A `_refuted` theorem is a concrete execution of the model.  These are the
behaviours of the code a user may not expect.

* Graph: a second self-loop on a node corrupts its adjacency list (C01);
  `clear` leaves nodes that later walks still reach (C06).
* Trees: querying a static tree before it is built, building with capacity
  zero, or from no boxes (C10).
* Collision exclusion: capacity, self-exclusion and removal without a list are
  not guarded (C12).
* Contact points: NaN or collinear points defeat the slot choice (C14); the
  normal attachment, rolling direction and local normal are not all exchanged
  when bodies are flipped (C15).
* Parallel: a task of size zero, or without workers, never completes (C17);
  a worker stopped before it starts, jobs dropped on stop, size underflow
  (C19); messages lost on `clear`, shared queue names (C20).
* Replication: a reference to an entity of a later operation, arrays with null
  entities, types that accumulate on merge (C22); mixed alignment (C23).
* Serialization: long or nested maps, variants, maps with content, cut sources
  (C24); reading past the end leaves values undefined (C25).
* Networking: C26-C34, see the `_refuted` names in `MANIFEST.json`.  The ones
  with most effect: one action on two entities executes twice (C28), a change
  can be forgotten before it is exported (C30), a client can take over an entity
  it did not create (C33).
* Stepper: the pause is simulated after a paused update, the step cap drops
  time (C35).
* Paged mesh: asynchronous loads exceed the limit; overlapping embedded loads
  read the wrong page (C36).
* Islands: destroying or converting a static body (C37); merged islands keep
  their sleep timer (C38).
* Constraints: point friction at rest and generic constraints with more than
  sixteen rows break the impulse bookkeeping (C47); clearing impulses (C50).
* Extrapolation worker: requests wait for another message, lost wake-ups, a
  lost stop (C44); a zero step never ends (C51).
* Queries: a ray with no candidate is never answered (C42).
* Parallel solver: iteration counts are truncated to eight bits (C52).
* Broadphase: removing the shape of a touching body, or giving a shape twice
  between updates, is undefined; a moved static body, and a kinematic body moved
  into a sleeping one, get no manifold (C53).
* Orientations: rotating by a scaled quaternion (C54); the angle between a
  quaternion and its opposite, interpolation between close orientations (C56).
* Mass: the tensor of every capsule, the products of inertia of convex meshes
  (C58); the origin left on an entity by `clear_rigidbody` (C59).
* Geometry: the second pair of points of parallel segments (C60), the distance
  returned from inside a box (C61), a tangent of a circle and concentric circles
  (C62).
* Raycasts: hits beyond the end (C63) or behind the start (C64, C67, C68), rays
  parallel to a face of a polyhedron (C65), normals of the sides of cylinders and
  capsules and of hemispheres, rays through the axis or parallel to it (C66),
  segments in the plane of a triangle (C67).

* Bounding boxes: cylinders nearly along an axis of the world, planes beyond
  99999, turned meshes and empty polyhedra (C69); the value of two of the three
  edges of a triangle is not raised to the greater end (C71).

* Contact points: capsules and cylinders whose axis is the fallback normal,
  capsules that are spheres (C72), pivots on planes and the threshold of spheres
  on planes (C73), the distance of a sphere inside a box and the assertion just
  outside (C74), parts of compounds within the threshold (C76).

* Constraints: sliders create angular momentum (C77), offsets along a turning
  axis (C78), the speed of hinge motors and locked angles (C79), turns of more
  than half a turn in a step (C80), cones behind the tip (C81), CV joints between
  bodies that cannot rotate (C82).

* Client: `on_destroy_networked_entity` asks the entity map, keyed by the
  server's identifiers, for the local entity, so it forgets an unrelated entity
  and keeps the destroyed one (C84); exit of an unlinked asset, early destruction
  of a new entity and changes of owner reach undefined behaviour (C83-C85).

* Plane: overlapping segments of opposite direction (C88), diagonals of
  rectangles (C89), points aligned with a corner, acute corners and the closing
  side of polygons (C90), the hull of no points (C91).
* Presentation: what is shown goes back in time when a much longer delay is
  needed (C92); bodies that fall asleep stay displaced, and offsets of bodies
  that are not procedural are added again at each update (C93).
* Triangle meshes: of three faces at an edge the middle one is not listed (C94);
  friction and restitution of a point of an edge use the squared fraction and
  differ from those of the face (C96).
* Convex meshes: calculating the properties again keeps the neighbors of before,
  as the lists are not cleared (C97).

## Not modelled

* Collision geometry of boxes, cylinders, capsules, polyhedra and meshes against
  each other other than in the table; the features recorded with contact points;
  restitution.
* Rendering, timers, OS threads, file I/O, profiling, the physical
  network.
* Of the client (`client_side.cpp`): the contents of the input history, the
  snapshot exporter, clock synchronisation beyond its result, settings other than
  the time step, and the values of components.
* Weak memory: atomics are sequentially consistent.
* Visits of a paged mesh from several threads at once.
* Floating point rounding: numbers are either arbitrary (no law assumed), or
  exact where a statement needs laws; each statement says which.  The geometry
  (C54 on) is over the reals, so it covers neither rounding nor NaN.
* Overflow of 32/64-bit counters, unless a theorem mentions it.
