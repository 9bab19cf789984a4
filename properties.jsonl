{"id": "C01", "title": "entity_graph is an undirected multigraph", "statement": "For every history of calls to insert_node, insert_edge, remove_edge, remove_all_edges, remove_node and set_connecting_node that respects the documented preconditions (indices of live nodes/edges, non-null entities, a node is removed only when it has no edges, and no node is given two self-loops), no call trips an internal assertion, reads out of bounds or loops forever, and every observer (num_nodes, num_edges, node_entity, edge_entity, edge_node_indices, edge_node_entities, has_adjacency, is_connecting_node, visit_edges, visit_neighbors) answers exactly what the abstract multigraph built by the same history answers. In particular visit_edges(a,b) enumerates exactly the live edges joining a and b, each once, whichever end is given first. The self-loop exclusion is necessary: a second self-loop on the same node trips an assertion.", "quantifier": "every finite sequence of graph operations, of any length, over any entities", "why_tests_cant": "adjacency and edge lists are threaded through three recycled arrays; an error needs a particular insert/remove order to show up and the number of orders is unbounded", "anchors": ["include/edyn/core/entity_graph.hpp: entity_graph::visit_edges, visit_neighbors", "src/edyn/core/entity_graph.cpp: insert_edge, remove_edge, remove_all_edges, remove_adjacency"]}
{"id": "C02", "title": "Node and edge handles stay stable and are never shared", "statement": "An index handed out by insert (node or edge) differs from every index that is live at that moment, denotes the inserted value until it is removed, and no other insertion or removal changes what any other live index denotes; the reported count is the number of live indices. No insertion is ever refused and removing the same index is the only way it becomes free again.", "quantifier": "every finite history of insertions and removals on a free_list", "why_tests_cant": "depends on the free chain staying acyclic and disjoint from the live set over unbounded histories with recycling", "anchors": ["include/edyn/core/free_list.hpp: free_list::insert, remove, count"]}
{"id": "C03", "title": "connected_components partitions exactly by connectivity", "statement": "On every graph reachable by legal calls that has at least one connecting node, connected_components returns a list of components such that: every connecting node appears in exactly one component and once in it; two connecting nodes share a component if and only if a path of edges passing only through connecting nodes joins them; a non-connecting node appears in a component exactly when it neighbours one of the component's connecting nodes; each edge incident to a connecting node appears in exactly one component, that of its connecting endpoint, and edges joining only non-connecting nodes appear nowhere. On a graph with no connecting node the call returns one empty component.", "quantifier": "every reachable graph", "why_tests_cant": "island splitting correctness needs the equivalence for every topology; tests check a handful of small graphs", "anchors": ["src/edyn/core/entity_graph.cpp: connected_components"]}
{"id": "C04", "title": "is_single_connected_component decides connectivity", "statement": "On every non-empty graph reachable by legal calls, is_single_connected_component terminates and returns true if and only if every two connecting nodes are joined by a path through connecting nodes.", "quantifier": "every reachable graph", "why_tests_cant": "universally quantified equivalence with path existence", "anchors": ["src/edyn/core/entity_graph.cpp: is_single_connected_component"]}
{"id": "C05", "title": "traverse and reach visit each reachable node and edge exactly once", "statement": "traverse(start) terminates and calls the node visitor exactly once for each node reachable from start by a path whose inner nodes (and start) are connecting, and the edge visitor exactly once for each edge incident to a visited connecting node. reach over a list of connecting nodes visits the same set component by component, calls the component callback once per distinct component, and repeats only non-connecting nodes, at most once per component.", "quantifier": "every reachable graph, every start node or list of start nodes", "why_tests_cant": "termination and exactly-once need an induction over the visited set", "anchors": ["include/edyn/core/entity_graph.hpp: entity_graph::traverse, entity_graph::reach"]}
{"id": "C06", "title": "Clearing the graph", "statement": "After entity_graph::clear the graph reports zero nodes and edges and later insertions work as on a graph with the same storage; but connectivity queries on the cleared graph still see the nodes that existed before the clear (connected_components on a cleared graph with a former connecting node returns that former entity), so clear does not make the graph observationally equal to a new one.", "quantifier": "every reachable graph that is cleared", "why_tests_cant": "needs reasoning about stale array slots for all prior histories", "anchors": ["include/edyn/core/free_list.hpp: clear", "src/edyn/core/entity_graph.cpp: clear, connected_components"]}
{"id": "C07", "title": "dynamic_tree holds exactly the live leaves", "statement": "After every history of create, destroy, move and clear, the tree reachable from the root is a binary tree with consistent parent links whose leaves are exactly the nodes created and not yet destroyed, each carrying its own entity; every allocated slot is either reachable or free (no leak); no call loops forever or reads out of bounds.", "quantifier": "every finite history of tree operations, any bounding boxes and any cost arithmetic", "why_tests_cant": "rotations, sibling choice and slot recycling create unboundedly many shapes", "anchors": ["src/edyn/collision/dynamic_tree.cpp: create, destroy, move, insert, remove, balance, refit"]}
{"id": "C08", "title": "dynamic_tree bounds enclose and queries are exact", "statement": "In every reachable tree, each internal node's box contains both children's boxes and its height is one more than the larger child's; consequently query(box) visits exactly the leaves whose stored box intersects the query box, each once, and a leaf's stored box contains the box last given to create/move.", "quantifier": "every reachable tree and every query box, over any totally ordered scalars", "why_tests_cant": "soundness of pruning is a universally quantified containment invariant maintained through rotations", "anchors": ["include/edyn/collision/query_tree.hpp: query_tree", "src/edyn/collision/dynamic_tree.cpp: refit, balance"]}
{"id": "C09", "title": "dynamic_tree::move reports change exactly when the object leaves its fat box", "statement": "move(id, box) leaves the tree unchanged and returns false if the stored box of the leaf contains the given box and otherwise reinserts the leaf with a stored box containing the given one and returns true; other leaves' boxes and entities are unchanged in both cases.", "quantifier": "every reachable tree, every live leaf, every box", "why_tests_cant": "must hold in each reachable tree", "anchors": ["src/edyn/collision/dynamic_tree.cpp: move, create"]}
{"id": "C10", "title": "Static tree build loses no element", "statement": "Building a static tree from a non-empty list of element boxes with a leaf capacity of at least one terminates and reports each element index exactly once, in groups no larger than the capacity; the reported nodes are exactly the leaves of one binary tree that uses every node once; every box contains the boxes below it; a leaf box is the smallest box around its elements. A query visits exactly the leaves whose box intersects the query box, each once, so no intersecting element is missed, and with one element per leaf exactly the intersecting elements are visited. A capacity of zero, an empty list, and querying a tree that was never built are not accepted (out-of-range access or assertion).", "quantifier": "every non-empty list of boxes over totally ordered scalars with monotone midpoint arithmetic, every leaf capacity of at least one, every correct sort", "why_tests_cant": "the split recursion must terminate and never produce an empty side for every input geometry", "anchors": ["include/edyn/collision/static_tree.hpp: static_tree::build", "include/edyn/collision/query_tree.hpp"]}
{"id": "C11", "title": "Contact manifold lookup is symmetric and complete", "statement": "contact_manifold_exists(a,b) equals contact_manifold_exists(b,a), get returns the same manifold entity for both orders, and after every history of manifold creation and destruction a pair is reported present exactly when a manifold for that pair is live.", "quantifier": "every history of manifold creations and destructions", "why_tests_cant": "needs an invariant over unbounded histories", "anchors": ["src/edyn/collision/contact_manifold_map.cpp", "include/edyn/collision/contact_manifold_map.hpp"]}
{"id": "C12", "title": "Collision exclusion stays mutual", "statement": "After every sequence of exclude_collision, remove_collision_exclusion and clear_collision_exclusion calls respecting the capacity of 16 per body and not excluding a body from itself, a excludes b if and only if b excludes a, a pair is excluded exactly when the last call mentioning it excluded it, no list contains duplicates, and should_collide(a,b)=should_collide(b,a); the collision filter test is symmetric too.", "quantifier": "every sequence of exclusion calls, every pair of bodies", "why_tests_cant": "history-quantified, includes capacity edge cases", "anchors": ["src/edyn/util/exclude_collision.cpp", "include/edyn/comp/collision_exclusion.hpp", "src/edyn/collision/should_collide.cpp"]}
{"id": "C13", "title": "Contact points of a manifold stay within capacity and are never lost", "statement": "Through every sequence of collision results, a manifold's point list is acyclic, has exactly num_points elements, at most four, all owned by that manifold; each update destroys exactly the points it unlinks, links exactly the points it creates, and every destroyed point was live. No result point is merged into two existing points nor inserted twice; points that separated and are not refreshed go away, other points go away only in exchange for a new one; a colliding pair always has a point; when every result point is the nearest of some existing point, existing points keep their identity and no point is created.", "quantifier": "every sequence of collision results over any distances and thresholds", "why_tests_cant": "the merge/insert/replace interplay has unboundedly many geometric cases", "anchors": ["include/edyn/util/collision_util.hpp: process_collision", "src/edyn/util/collision_util.cpp: create_contact_point, destroy_contact_point, find_nearest_contact"]}
{"id": "C14", "title": "Choosing the slot for a new contact point is index-safe", "statement": "insertion_point_index always returns a slot inside the array for totally ordered distances, appends exactly when it increments the number of points, never exceeds four points and never drops a point without replacing it. With four points it makes the exchange with the best score, with two and a third on their line it keeps a longest segment. With unordered (NaN) distances and three collinear points it returns an out-of-range slot; with three collinear points the one replaced is not always the middle one.", "quantifier": "every list of existing points and every new point", "why_tests_cant": "depends on every ordering of computed areas/distances, including NaN", "anchors": ["src/edyn/math/geom.cpp: insertion_point_index", "src/edyn/collision/collision_result.cpp: add_point, maybe_add_point"]}
{"id": "C15", "title": "Swapping the bodies of a collision result is an involution", "statement": "Exchanging the roles of the two bodies in a collision result or manifold twice gives back the original, and one exchange negates the normal and exchanges pivots, features and attachment, so both argument orders of a collision describe the same contacts and existing contacts are matched with them independently of the order of the bodies. Exceptions: with a rolling second body the matching depends on the order; flipping an imported contact that is attached to neither body attaches it to the first one; exchanging the bodies of a manifold does not negate the stored local normal.", "quantifier": "every collision result of any size", "why_tests_cant": "algebraic law over all contents", "anchors": ["include/edyn/collision/collision_result.hpp: swap", "src/edyn/util/constraint_util.cpp: swap_manifold", "src/edyn/networking/util/import_contact_manifolds.cpp: flip_contact_point"]}
{"id": "C16", "title": "A parallel task range is covered exactly once", "statement": "For every element count and number of workers (at least one), the sub-ranges executed by the jobs of a parallel task or parallel-for are disjoint, in bounds and together cover every index exactly once, in the blocking and in the asynchronous form.", "quantifier": "every size, every worker count, every schedule", "why_tests_cant": "all sizes and divisions, off-by-one in the remainder", "anchors": ["src/edyn/context/task.cpp"]}
{"id": "C17", "title": "Task completion fires exactly once, after all work, for every schedule", "statement": "In every interleaving of the worker threads, the completion callback of an asynchronous task runs exactly once and only after every sub-range finished, the shared context is released exactly once and never touched afterwards; a blocking task returns only after every sub-range has finished. A task of size zero never completes (its callback is never called).", "quantifier": "every interleaving of any number of jobs", "why_tests_cant": "races are schedule-dependent", "anchors": ["src/edyn/context/task.cpp", "include/edyn/parallel/atomic_counter_sync.hpp"]}
{"id": "C18", "title": "Job queue is a lossless FIFO", "statement": "In every interleaving of pushes and pops, each pushed job is popped at most once, jobs leave in push order, none is invented, and a popped-or-queued accounting holds at every moment.", "quantifier": "every interleaving of producers and consumers", "why_tests_cant": "schedule-dependent", "anchors": ["src/edyn/parallel/job_queue.cpp", "include/edyn/parallel/job_queue.hpp"]}
{"id": "C19", "title": "Worker shutdown", "statement": "A worker that is stopped after its loop has started terminates in every interleaving and runs every job it popped exactly once; but if stop is called before the worker thread enters its loop the request is lost and joining never returns, and jobs still queued when a stop takes effect are dropped. The dispatcher hands each job to exactly one worker, one with the least number of pending jobs it read, and fails an assertion only if at least two workers all report the largest count, which a racing decrement can produce.", "quantifier": "every interleaving of start, push, stop and join", "why_tests_cant": "needs exploring all interleavings", "anchors": ["include/edyn/parallel/worker.hpp", "src/edyn/parallel/job_dispatcher.cpp"]}
{"id": "C20", "title": "Messages are delivered once and in order", "statement": "Every message sent to a queue with one reader is delivered to the reader's handlers exactly once, in send order, by the first update after the send, except message types the reader does not list, which are discarded; messages to unknown queues are dropped without effect on others. Two readers of one name split the messages between them, and a reader made later receives what an earlier one left.", "quantifier": "every interleaving of senders and updates", "why_tests_cant": "schedule-dependent", "anchors": ["include/edyn/parallel/message_queue.hpp", "include/edyn/parallel/message_dispatcher.hpp"]}
{"id": "C21", "title": "Entity map is a bijection", "statement": "After every history of insert, erase, erase_local, swap and clear respecting the freshness precondition, the remote-to-local and local-to-remote lookups are mutually inverse partial functions and agree with the insertions not yet erased.", "quantifier": "every history of map operations", "why_tests_cant": "history-quantified invariant on two tables", "anchors": ["include/edyn/replication/entity_map.hpp"]}
{"id": "C22", "title": "Registry operations replicate state", "statement": "Executing the operations recorded for a set of changes on the destination registry makes every recorded component equal to the source value (with entity references translated through the entity map), creates exactly the recorded entities, is independent of repeating create operations, and leaves every other entity and component untouched. With an observer recording changes, the destination mirrors the observed entities after every delivery, provided each recorded reference is to an already observed entity, arrays have their null references at the end, and replacing a component is an assignment; without these provisos it can differ (a reference to a later observed entity arrives as null, an array with a leading null arrives with an entity twice, an accumulating type accumulates).", "quantifier": "every history of source changes, observations and deliveries, every recorded operation list, every destination registry and entity map", "why_tests_cant": "composition over unbounded operation lists", "anchors": ["include/edyn/replication/registry_operation.hpp", "include/edyn/replication/registry_operation_builder.hpp"]}
{"id": "C23", "title": "Operation buffers never overlap", "statement": "For every sequence of recorded operations of any sizes the storage handed to each operation lies inside one allocated block and overlaps no other operation's storage; an alignment common to all sizes is kept by all offsets, while an operation with a stricter alignment than another may be misplaced; recording after finishing without taking the result reuses storage still in use.", "quantifier": "every sequence of operation sizes", "why_tests_cant": "allocation arithmetic over unbounded sequences", "anchors": ["include/edyn/replication/registry_operation_builder.hpp: make_op"]}
{"id": "C24", "title": "Serialization round-trips", "statement": "For every sequence of values of the supported types (integers, booleans, strings, vectors, vector<bool>, arrays, maps, pairs, variants with distinct alternatives, optionals) whose containers hold at most 65535 elements, writing to a memory archive and reading back into new objects gives the same values, consumes exactly the bytes written and reports no failure, whatever surrounds them; longer vectors and strings are cut to 65535 elements. The boundary: a longer map is written in full but read in part, so that what follows is misread; a map keeps the entries it had before, and a map of maps therefore mixes entries; equal alternatives of a variant are not told apart; writing a longer vector cuts the vector being written.", "quantifier": "every sequence of values of every composition of types", "why_tests_cant": "unbounded value space", "anchors": ["include/edyn/serialization/memory_archive.hpp", "include/edyn/serialization/std_s11n.hpp"]}
{"id": "C25", "title": "Deserialization never reads out of bounds", "statement": "Reading any sequence of values from any byte string never accesses a byte outside it; once a read fails the archive stays failed and later reads do not move the position; a written value that is cut short anywhere is always reported as a failure; writing into a buffer of fixed size never touches a byte outside it, stores a prefix of the data without gaps and reports failure exactly when something did not fit. The boundary: a boolean byte other than 0 and 1, and a bit vector cut short, make the reader use a value that was never defined.", "quantifier": "every byte string, every read schedule, every buffer size", "why_tests_cant": "adversarial input space", "anchors": ["include/edyn/serialization/memory_archive.hpp: memory_input_archive, fixed_memory_output_archive", "include/edyn/serialization/std_s11n.hpp"]}
{"id": "C26", "title": "Clock synchronisation uses only matching replies", "statement": "For every sequence of updates and responses: nothing undefined happens (the sample store is never indexed outside, no member is read before it is set); a response is taken into account exactly when it answers the request sent last and not yet answered, otherwise it changes nothing; every sample comes from two consecutive exchanges that agree within 10%; the offset is the mean of the last complete round of five samples (and, during the first round only, of the samples so far). If the remote clock differs by a constant and round trips take at most B, the offset is off by at most B/2.", "quantifier": "every interleaving of updates and responses with any timestamps, ids and random numbers", "why_tests_cant": "protocol histories", "anchors": ["src/edyn/networking/util/clock_sync.cpp", "include/edyn/networking/util/clock_sync.hpp"]}
{"id": "C27", "title": "Action history merging never loses new actions", "statement": "Merging received histories keeps entries sorted by time, adds exactly the received entries newer than everything accepted before, and merging the same history again adds nothing; erasing until a time removes exactly the older entries. If overlapping windows of a client's stream of actions (with positive, strictly increasing times) are received, each starting no later than the first action not received yet, every action is accepted exactly once. Actions at or before time zero, and actions with a time equal to one received earlier, are lost; a growing clock estimate makes actions be accepted twice; a history for an entity without one is undefined; the copy kept by the client for extrapolation holds the first history twice.", "quantifier": "every sequence of merges and erasures", "why_tests_cant": "unbounded histories and resends", "anchors": ["include/edyn/networking/comp/action_history.hpp", "include/edyn/networking/util/server_snapshot_importer.hpp: merge_action_history"]}
{"id": "C28", "title": "Server executes each client action exactly once per entity", "statement": "For a client owning a single entity with actions, every merged action whose time has come is executed exactly once, in time order, and never before its time; with several owned entities an action older than one already executed for another entity is discarded without ever being executed.", "quantifier": "every arrival order of action histories and every update schedule", "why_tests_cant": "interleavings of arrivals and updates across entities", "anchors": ["src/edyn/networking/sys/server_side.cpp: dispatch_actions"]}
{"id": "C29", "title": "Server processes delayed packets in timestamp order", "statement": "Packets queued for a client are processed exactly once; each update processes all that are due, none before its timestamp plus the playout delay, in non-decreasing timestamp order with ties in arrival order. Over several updates the order is by timestamp provided no packet arrives when its turn has passed (a late packet is processed after newer ones).", "quantifier": "every arrival sequence and update schedule", "why_tests_cant": "unbounded schedules", "anchors": ["src/edyn/networking/sys/server_side.cpp: insert_packet_to_queue, server_process_timed_packets"]}
{"id": "C30", "title": "Modified-component tracking", "statement": "For every sequence of modifications and time advances, the set of components pending export of an entity is duplicate-free, contains a component exactly when the time elapsed since its last modification (summed over the updates, in whole milliseconds) has not exceeded the retention period, and is empty once everything decayed; recording a modification when all components are already pending trips an assertion. Time is counted from the update before the modification, so a component modified between two updates more than 402 ms apart is never exported, and updates less than a millisecond apart never let anything expire.", "quantifier": "every sequence of bumps and decays", "why_tests_cant": "history-quantified", "anchors": ["include/edyn/networking/comp/exporter_modified_components.hpp", "include/edyn/networking/util/server_snapshot_exporter.hpp: update"]}
{"id": "C31", "title": "Snapshots survive the wire and apply to the right entities", "statement": "A snapshot exported from one registry, with at most 256 entities and, per component type, at most 255 entities and 65535 bytes, is reproduced exactly by write-then-read, and applying it at the receiver changes exactly the exported components of the corresponding entities, each with the value of its own entity. Beyond those limits data is lost or attributed to wrong entities without an error: a component type with 256 entities reads back empty, the 257th entity is confused with the first, and longer data is cut. Packets with an unknown component index or an entity index out of range are undefined behaviour.", "quantifier": "every snapshot, every sender and receiver registry, every entity mapping", "why_tests_cant": "wrap-around happens only at sizes tests do not reach", "anchors": ["include/edyn/networking/util/pool_snapshot_data.hpp", "include/edyn/networking/util/pool_snapshot.hpp"]}
{"id": "C32", "title": "Interest management keeps the client's set of entities exact", "statement": "Each evaluation of a client's area of interest adds to the entered and exited lists exactly the difference between the old and the new entity set. For every sequence of evaluations and notifications, in which an entity that shows up is still there at the next notification, the client that follows the notifications has exactly the entities inside the area that belong to no asset and exactly the assets with an entity inside, also across assets that leave partly and entities the client destroys itself. With results that arrive asynchronously an entity that enters and leaves between two notifications stays at the client forever, one that enters twice is undefined behaviour, and an asset whose entity was destroyed on the server is never reported as gone.", "quantifier": "every sequence of entity sets, notifications and destroyed entities", "why_tests_cant": "history-quantified", "anchors": ["src/edyn/networking/sys/update_aabbs_of_interest.cpp", "src/edyn/networking/sys/server_side.cpp: process_aabb_of_interest_entities_exited, process_aabb_of_interest_entities_entered"]}
{"id": "C33", "title": "A client cannot destroy or drive what it does not own", "statement": "A destroy packet removes exactly the named entities the client owns and the constraints attached to them, and changes nothing else. A snapshot of a client, however late it is applied, changes only what it was allowed to change when received: state of bodies, constraints and children whose island reaches this client's bodies and no other client's, and inputs and action histories of entities it owns; never anything of a body of another client. A create packet leaves every existing entity it does not name alone. A packet that updates the entity map adds exactly the pairs whose entity exists. When the client leaves, its entities go with it. Beyond that: a create packet naming an entity of another client the sender has a mapping for overwrites its components including its owner; the full-ownership setting is not consulted; and some packets (a history for an entity without one, an entity outside the graph, an index out of range, a repeated create of a body with mass, a destroy of an entity the application gave to the client) are undefined behaviour on the server.", "quantifier": "every packet content, every ownership assignment and graph", "why_tests_cant": "adversarial packets", "anchors": ["src/edyn/networking/sys/server_side.cpp: process_packet(create_entity, destroy_entity)", "include/edyn/networking/util/server_snapshot_importer.hpp: is_only_reachable_client, transform_components_to_local"]}
{"id": "C34", "title": "Playout delay is bounded and stable", "statement": "For every sequence of round trip times, areas of interest and settings, the playout delay of a client changes only when the newly computed delay differs by more than 6 percent, always to the computed delay, and the client is told exactly when it changes; so with a fixed maximum it never exceeds the maximum, and it stays within 6 percent of the delay computed last. When the maximum is lowered by no more than 6 percent the delay stays above the new maximum.", "quantifier": "every sequence of client latencies and settings", "why_tests_cant": "all latency sequences", "anchors": ["src/edyn/networking/sys/server_side.cpp: calculate_client_playout_delay"]}
{"id": "C35", "title": "Fixed-step accumulator conserves time", "statement": "While not paused and with time not going backwards, and no two updates further apart than the step cap allows, the steps performed by any sequence of updates are exactly the ones due: the k-th at start + k times the fixed step, however the updates slice the time. With larger gaps the simulation timestamp still stays on that grid, less than one step behind, and an update performs at most the cap, at increasing times; the other steps are dropped. The presentation is always one fixed step behind the given time, never extrapolated. No step is performed while paused except the ones asked for. In asynchronous mode the clock restarts when resumed; in sequential mode the time spent paused is simulated on resuming, setting the simulation unpaused again drops the time since the last step, and time going back and forth is simulated repeatedly.", "quantifier": "every sequence of update times and settings", "why_tests_cant": "accumulates over unbounded call sequences", "anchors": ["src/edyn/simulation/stepper_sequential.cpp: update, set_paused", "src/edyn/simulation/simulation_worker.cpp: update"]}
{"id": "C36", "title": "Paged mesh cache limit and LRU", "statement": "For every sequence of page visits, completed loads and cache clearings on a paged mesh read from a file whose pages are below the limit: no visit fails; the vertices loaded or being loaded never exceed the limit times one plus the number of loads in flight, so with a loader that finishes at once (or one load at a time) they never exceed the limit; a visit unloads pages only when it must load its own, only pages visited less recently than every page that stays, and no more than needed; the visitor is called with the visited page whenever it is loaded or loads at once, and with no other; every load and unload is reported once. Not so: with several loads in flight the limit is exceeded, a page of exactly the limit fails an assertion, a mesh created in memory starts over the limit, a thickness set later is lost when a page is reloaded, clearing the cache is not reported, and overlapping loads from one embedded file read another page.", "quantifier": "every sequence of page visits", "why_tests_cant": "cache histories", "anchors": ["src/edyn/shapes/paged_triangle_mesh.cpp: load_node_if_needed, mark_recent_visit, unload_least_recently_visited_node, assign_mesh"]}
{"id": "C37", "title": "Islands are the connected components", "statement": "At all times each body and edge names the island which lists it, and an island lists both ends of its edges. After every update every procedural body and every edge touching one is in exactly one island, and procedural bodies connected through procedural bodies share their island. They share it exactly when connected, as long as no update so far had to deal with new edges and destructions at once. Every legal call succeeds, except that destroying a static body may not. Beyond that: an update finding both a new edge and a destroyed one may leave a body in the island of bodies it is no longer connected to; destroying a static body whose edges are gone may erase from an island that no longer exists (undefined behaviour); making a body static before its first update, or clearing a constraint in the frame it was made, is undefined behaviour; and making a body static does not split its island.", "quantifier": "every history of node/edge creation and destruction between updates", "why_tests_cant": "merge/split histories", "anchors": ["src/edyn/simulation/island_manager.cpp"]}
{"id": "C38", "title": "Sleeping decisions", "statement": "An island and its residents sleep and wake together, so connected bodies do after an update. Only an update puts an island to sleep, and only if that update and all updates of a span longer than the configured time found no fast body and none that may not sleep among the island's members of then. After an edge is attached to a sleeping body, or a body or edge of a sleeping island is destroyed, the next update leaves the bodies concerned awake, unless they joined an island which was awake and whose own span ends with that update. Beyond that: a body that was fast at the previous update can be put to sleep at once by joining an island whose span is running.", "quantifier": "every history of velocities and update times", "why_tests_cant": "temporal property", "anchors": ["src/edyn/simulation/island_manager.cpp: could_go_to_sleep, put_islands_to_sleep", "src/edyn/util/island_util.cpp"]}
{"id": "C39", "title": "Accumulated constraint impulses respect their limits", "statement": "After a step of an island with at least one velocity iteration, from any velocities, stored impulses, other constraints and numbers without a value below itself, every impulse a constraint reports lies within the limits of its row whenever the lower one is not above the upper one: a contact never pulls, a hinge's friction stays within its torque over the time step, its limit only pushes back into the range and its spring never exceeds stiffness times deflection times the time step. In exact arithmetic the friction impulses of a contact are within the friction coefficient times the reported normal impulse (also rolling and spinning friction). With no iteration the stored impulse is reapplied even outside its limits, and a negative torque inverts them.", "quantifier": "every island, number of iterations at least one, state and number type", "why_tests_cant": "all iterate sequences; asserted by no test", "anchors": ["src/edyn/constraints/constraint_row.cpp: solve", "src/edyn/constraints/constraint_row_friction.cpp: solve_friction", "src/edyn/constraints/constraint_row_spin_friction.cpp", "src/edyn/dynamics/island_solver.cpp: solve"]}
{"id": "C40", "title": "Material mixing table lookups", "statement": "If every pair of ids passed to the table has the smaller id first, then after every sequence of insertions and removals (and whatever way the map balances itself) a lookup returns the last value inserted for the pair and not removed since. Without that discipline the promise of an unordered pair fails: the comparison is not a strict weak ordering, and after inserting (1,3) and (2,1) a lookup of (1,2) finds nothing although (2,1) is found.", "quantifier": "every sequence of insertions and removals, every id pair, every shape of the underlying tree", "why_tests_cant": "the failure depends on which other pairs are present and on the shape of the tree", "anchors": ["include/edyn/dynamics/material_mixing.hpp", "include/edyn/core/unordered_pair.hpp"]}
{"id": "C41", "title": "flat_nested_array views", "statement": "After every sequence of pushes, element [i][j] is the j-th element pushed into the i-th array, sizes agree, all accesses are in bounds, and out-of-range indices are caught by the assertion. Elements pushed before the first array belong to no array.", "quantifier": "every push sequence", "why_tests_cant": "unbounded sequences", "anchors": ["include/edyn/core/flat_nested_array.hpp"]}
{"id": "C42", "title": "Asynchronous queries deliver their result exactly once", "statement": "As long as no more than 2^32 rays and 2^32 box queries are issued, in every interleaving of the main thread and the simulation worker: each asynchronous raycast or AABB query gets an id different from all others of its kind; no callback is called twice; a callback is called with the id, ray and delegate of its own request, also when callbacks issue further requests; a ray's result is the nearest hit, in the worker's state when it casts the ray, among the entities not ignored, a box result holds exactly the entities of the worker's state when it handles the query, both translated to entities of the main registry; when nothing is under way every box query and every ray that touches the bounds of some entity has been called back. A ray that touches the bounds of no entity is never called back and its entry stays, and when ids wrap around a request replaces the entry of such a ray.", "quantifier": "every interleaving of requests and responses", "why_tests_cant": "protocol histories", "anchors": ["src/edyn/simulation/stepper_async.cpp: raycast, query_aabb, query_aabb_of_interest, on_raycast_response, on_query_aabb_response", "src/edyn/collision/raycast_service.cpp", "src/edyn/simulation/simulation_worker.cpp: on_raycast_request, on_query_aabb_request, on_query_aabb_of_interest_request, consume_raycast_results"]}
{"id": "C43", "title": "Child entity lists", "statement": "In every history where a child is given a parent only while it has no child information, each parent's children form a duplicate-free acyclic list equal to the children added and not removed, most recent first. A removed child keeps its child information, and attaching it again while it still carries it is undefined.", "quantifier": "every history of parenting", "why_tests_cant": "linked-list histories", "anchors": ["include/edyn/comp/child_list.hpp", "src/edyn/util/rigidbody.cpp"]}
{"id": "C44", "title": "Extrapolation requests", "statement": "In every interleaving of the extrapolation worker with the threads that send to it, messages are handled in the order sent, each once; requests are processed in arrival order, at most three stay pending and only the oldest pending ones are dropped; a processed request yields one result exactly if all entities it names are known by then; a worker that is awake handles everything sent to it before it blocks, and a stop it sees ends it. A pending request can however wait for an unrelated later message, a wake-up can be lost between the check and the wait, the stop can be lost the same way, and the destructor does not wait for the thread.", "quantifier": "every interleaving of requests and the worker loop", "why_tests_cant": "schedule-dependent liveness", "anchors": ["src/edyn/networking/extrapolation/extrapolation_worker.cpp: run, on_extrapolation_request, on_push_message"]}
{"id": "C45", "title": "Parallel and sequential narrowphase give the same contacts", "statement": "Whatever the order in which the parallel ranges process the manifolds, after the deferred destructions and creations the contact points, their order in each manifold, their identities, geometry and lifetimes are the same as after the sequential narrowphase.", "quantifier": "every set of manifolds in every reachable state, every collision result, every processing order", "why_tests_cant": "schedules and deferred effects, identifiers assigned at different times", "anchors": ["include/edyn/collision/narrowphase.hpp: update_contact_manifolds", "src/edyn/collision/narrowphase.cpp: detect_collision_parallel, finish_detect_collision"]}
{"id": "C46", "title": "Extrapolation replays recorded inputs and actions", "statement": "Each step of an extrapolation imports exactly the recorded entries of the closed time interval of length fixed_dt ending at the time of the step, in order: no entry since one step before the start is missed and an entry strictly between two step times is imported exactly once. An action whose time coincides with a step time is executed in two consecutive steps. The input applied at the start is the last one recorded at or before the start time; erasing old inputs also erases the input in effect at the erasure time.", "quantifier": "every recorded history, start time and number of steps", "why_tests_cant": "boundary coincidences over unbounded histories", "anchors": ["include/edyn/networking/util/input_state_history.hpp: import_each, import_latest, erase_until", "src/edyn/networking/extrapolation/extrapolation_worker.cpp: extrapolate, apply_history"]}
{"id": "C47", "title": "Each constraint gets its own impulses back", "statement": "Solving an island in the packed arrays, with friction rows in arrays of their own addressed by row number and impulses read back through running counters, is the same as solving rows that each belong to their constraint: velocities are equal, each constraint's fields get the impulses of its own rows, in order, other constraints are untouched, and the next step starts every row from the impulse it ended with. Preconditions: each entity has at most eight constraints with at most sixteen rows together and a point constraint with friction connects bodies with relative angular velocity; violating them is undefined behaviour or an assertion failure.", "quantifier": "every set of entities with every mix of the ten constraint types, any configuration, geometry and number of iterations", "why_tests_cant": "index bookkeeping over unbounded mixes", "anchors": ["src/edyn/dynamics/island_solver.cpp: insert_rows, pack_rows, update_impulse, assign_applied_impulses", "include/edyn/dynamics/row_cache.hpp", "src/edyn/constraints: prepare and store_applied_impulses of every constraint"]}
{"id": "C48", "title": "Constraint impulses account for every velocity change", "statement": "In exact arithmetic the change of each body's linear and angular velocity by a step's constraint solving equals the sum over all rows touching it of inverse mass times Jacobian times the impulse finally stored, whatever the number of iterations and clamping in between. Hence constraints between dynamic bodies conserve total linear momentum, and a body that is not procedural never accumulates velocity.", "quantifier": "every island, every number of iterations", "why_tests_cant": "algebraic identity over unbounded iterates", "anchors": ["src/edyn/constraints/constraint_row.cpp: apply_row_impulse, solve, warm_start", "src/edyn/dynamics/island_solver.cpp"]}
{"id": "C49", "title": "A solved row satisfies its constraint", "statement": "In exact arithmetic, after a row with positive effective mass is solved and applied its impulse is within limits, the relative speed is not below target unless the impulse is at its upper limit and not above target unless it is at its lower limit. An island of one row is solved by one iteration: further iterations change nothing.", "quantifier": "every row between two different bodies, every state", "why_tests_cant": "real-valued quantities", "anchors": ["src/edyn/constraints/constraint_row.cpp: prepare_row, solve, apply_row_impulse"]}
{"id": "C50", "title": "Clearing applied impulses", "statement": "After clear_applied_impulses a constraint starts its next step from zero impulses and its configuration is unchanged, provided it uses at most sixteen impulse fields and is not a hinge with a bump stop. A hinge whose bump stop is not engaged keeps the old bump stop impulse, and a generic constraint using more than sixteen fields reads past the end of the zeros.", "quantifier": "every constraint type and configuration", "why_tests_cant": "stale fields only show later", "anchors": ["include/edyn/util/constraint_util.hpp: clear_applied_impulses", "src/edyn/constraints: store_applied_impulses"]}
{"id": "C51", "title": "Extrapolation reaches the present or its deadline", "statement": "Whatever the clock returns, with a positive fixed time step an extrapolation ends after at most as many steps as fit between its start time and the deadline (its first clock reading plus the execution time limit); the timestamp of the result is the start time plus the number of steps times the time step. It is marked as terminated early exactly if the last clock reading is past the deadline; otherwise its timestamp is after the last clock reading, and, if the clock never goes back and the start time is not in the future, by at most one time step. With a zero time step it need not end.", "quantifier": "All clock readings, start times, limits and positive time steps", "why_tests_cant": "The clock is a user function and the number of steps is unbounded; tests fix one clock", "anchors": ["src/edyn/networking/extrapolation/extrapolation_worker.cpp: begin_extrapolation, should_step, finish_step, extrapolate, finish_extrapolation"]}
{"id": "C52", "title": "Multithreaded island solving gives the single-threaded result", "statement": "With several islands awake and any number of worker threads, a multithreaded step's solver waits until every island is solved and then leaves exactly the velocities, transforms and impulses that solving the islands one after another would, whatever the schedule, however the bodies of islands with more than 64 bodies are divided among jobs and in whatever order islands are visited; no per-island context is used after deletion and waiting ends after a bounded number of jobs. Preconditions: between 1 and 255 velocity iterations, at most 255 position iterations (the counts are cut to 8 bits, and zero velocity iterations become one), and solving an island changes nothing that another island reads.", "quantifier": "Every number of islands, bodies, jobs and iterations, every schedule, every solver code with the stated footprint", "why_tests_cant": "Unboundedly many interleavings; tests see a few schedules and small counts", "anchors": ["src/edyn/dynamics/island_solver.cpp: island_solver_update, apply_solution, integrate_velocities, run_island_solver_seq_mt, run_island_solver_seq", "src/edyn/dynamics/solver.cpp: solver::update"]}
{"id": "C53", "title": "Broadphase finds every close pair and keeps one manifold per pair", "statement": "In every history of creating and destroying bodies, giving and taking shapes, changing kinds, AABBs and sleeping/disabled tags, broadphase updates return normally. After an update every awake enabled dynamic body has a contact manifold with every enabled body it should collide with and whose AABB meets its own grown by the contact threshold, provided the other body is an awake dynamic or kinematic body or its AABB did not change since it was last inserted; pairs that should not collide, are disabled or are away get no new manifold; awake manifolds are removed exactly when the AABBs are apart by more than the separation threshold; no pair ever has two manifolds. The multithreaded update gives the same state as the sequential one. Box queries return each body at most once and miss none. Preconditions: a shape is not removed from a body with manifolds, nor given twice between updates (otherwise the next update is undefined); a static body moved into a dynamic one, and a kinematic one moved into a sleeping one, are missed.", "quantifier": "All histories of calls, all AABBs over any totally ordered scalar, any filter function, any order of iteration, any number of bodies", "why_tests_cant": "Depends on the shape of two incrementally rebalanced trees and on unbounded histories; tests place a few boxes", "anchors": ["src/edyn/collision/broadphase.cpp: update, init_new_aabb_entities, move_aabbs, destroy_separated_manifolds, collide_tree, collide_tree_async, finish_collide, set_procedural, on_destroy_tree_resident", "include/edyn/collision/broadphase.hpp: query_procedural, query_non_procedural", "src/edyn/util/rigidbody.cpp: rigidbody_set_shape, rigidbody_replace_kind_tags"]}
{"id": "C54", "title": "Orientations rotate and frames are rigid", "statement": "In exact arithmetic, rotating vectors by a unit quaternion is linear and keeps lengths, angles and handedness, the conjugate undoes it and a product of quaternions applies one rotation after the other. The matrix of any nonzero quaternion is the rotation of its unit multiple, while rotating directly with a quaternion that is not of unit length is not a rotation. Converting points between world and object space with a unit orientation is invertible, keeps distances and is the same with the orientation given as a matrix.", "quantifier": "All vectors, positions and quaternions over the reals", "why_tests_cant": "Real-valued inputs; tests sample a few", "anchors": ["include/edyn/math/quaternion.hpp: rotate, operator*, conjugate", "include/edyn/math/matrix3x3.hpp: to_matrix3x3", "include/edyn/math/transform.hpp: to_world_space, to_object_space"]}
{"id": "C55", "title": "Matrix conversions and inverses", "statement": "In exact arithmetic every rotation matrix is converted to a unit quaternion whose matrix is the given one, so quaternions survive the round trip as orientations; angles extracted from a rotation matrix rebuild it exactly, including at the poles, and the matrix built from angles turns about z, then y, then x. A matrix with determinant beyond the tolerance times its inverse is the identity, others give the zero matrix; the symmetric inverse returns exactly for symmetric matrices that have an inverse, and returns it.", "quantifier": "All matrices over the reals", "why_tests_cant": "Case analysis on the trace and the largest diagonal element, singular poles; tests sample a few matrices", "anchors": ["include/edyn/math/matrix3x3.hpp: to_quaternion, inverse_matrix, inverse_matrix_symmetric, get_euler_angles_xyz, matrix3x3_from_euler_angles_xyz"]}
{"id": "C56", "title": "Turning, spinning and interpolating orientations", "statement": "In exact arithmetic the quaternion made from an axis and an angle turns counterclockwise about the axis by the angle and both can be read back. Advancing an orientation with an angular velocity turns it about the velocity's direction by speed times time, exactly from 0.001 rad/s on and within (speed x time)^5/1000 below, and keeps unit length. The shortest arc carries one unit vector to the other about a common normal by the angle between them; nearly opposite vectors give a half turn carrying the first to its opposite. The tangents of a normal complete it to an orthonormal right-handed frame. The angle between two orientations is the angle of the turn between them, though not always the smaller one: a quaternion and its opposite are a full turn apart. Interpolation turns at constant speed the shorter way from the first orientation to the second, except that it never leaves the first one when the two are closer than the tolerance.", "quantifier": "All unit quaternions, unit vectors, angular velocities and times up to a second over the reals", "why_tests_cant": "Real-valued inputs and error bounds; tests sample a few", "anchors": ["include/edyn/math/quaternion.hpp: quaternion_axis_angle, quaternion_angle, quaternion_axis, slerp", "src/edyn/math/quaternion.cpp: integrate, shortest_arc, angle_between", "src/edyn/math/geom.cpp: plane_space, make_tangent_basis"]}
{"id": "C57", "title": "Volumes and centroids", "statement": "In exact arithmetic the volume reported for a box, sphere, cylinder, capsule or convex mesh is the integral of one over the solid, and that of a compound of boxes, spheres and cylinders is the sum over its parts. For a closed mesh the volume does not depend on where the mesh is, the centroid is the mean position over the solid, and initialising the mesh moves it so that its centroid is the origin. The mesh generated for a box has the box's volume, centroid and moments of inertia.", "quantifier": "All positive sizes, all meshes given by face tables with any number of faces and vertices per face", "why_tests_cant": "Real-valued inputs and an unbounded family of meshes; tests compare a few numbers", "anchors": ["src/edyn/math/shape_volume.cpp", "src/edyn/util/shape_util.cpp: make_box_mesh, mesh_centroid", "src/edyn/shapes/convex_mesh.cpp: shift_to_centroid"]}
{"id": "C58", "title": "Moments of inertia", "statement": "In exact arithmetic the tensor of a box, sphere, (hollow) cylinder or compound of boxes, spheres and cylinders gives, for every direction, the integral of density times squared distance to the axis over the solid of uniform density and the given mass, wherever the parts are placed and however turned; shifting a tensor is the parallel axis theorem and the world space inverse is the inverse of the turned tensor. The tensor of every capsule is wrong: across the axis it exceeds the true one by 9/64 of the mass of the end caps times the squared radius, and for the y axis the cylinder's terms are exchanged. The tensor of a convex mesh has its products of inertia with the wrong sign, so it is right only when they vanish.", "quantifier": "All positive sizes and masses, all meshes, all compounds, all placements", "why_tests_cant": "Integrals over continuous families of solids; tests compare single entries", "anchors": ["src/edyn/dynamics/moment_of_inertia.cpp", "src/edyn/util/rigidbody.cpp: make_rigidbody"]}
{"id": "C59", "title": "Centre of mass", "statement": "Assigning a centre of mass moves the body's position to it while the origin of the body and the velocity of each of its material points stay the same; only the last assigned centre of mass matters and assigning zero removes it. Setting the origin places it there and changes no velocity. A new body has its origin at the given position, and through every later change of centre of mass, origin or motion, collision detection and raycasts use the origin of the body. After clear_rigidbody the old origin stays on the entity: made a body again, it collides at the old place, and giving it a centre of mass is undefined.", "quantifier": "All histories of assignments and motions, all positions, orientations and velocities over the reals", "why_tests_cant": "Unbounded histories over real-valued states", "anchors": ["src/edyn/util/rigidbody.cpp: apply_center_of_mass, get_rigidbody_origin, set_rigidbody_origin, make_rigidbody, clear_rigidbody", "src/edyn/sys/update_origins.cpp"]}
{"id": "C60", "title": "Closest points of lines, segments and discs", "statement": "In exact arithmetic the point returned for a segment, a line or a disc is the nearest one to the given point and the returned number is its squared distance; two lines that are not declared parallel get their nearest pair of points, and two segments that are each a single point or longer than the tolerance, and exactly parallel or away from it by more than the tolerance, get a nearest pair. For parallel segments a second pair may be returned; its points lie on the segments, but it is a nearest pair only unless the segments run the same way and the second one starts past the middle of the first one and ends past its end.", "quantifier": "All points, directions, radii and orientations over the reals", "why_tests_cant": "Real-valued inputs with many clamping cases; tests sample a few", "anchors": ["src/edyn/math/geom.cpp: closest_point_segment, closest_point_line, distance_sqr_line, closest_point_line_line, closest_point_segment_segment, closest_point_disc"]}
{"id": "C61", "title": "Closest points of boxes", "statement": "In exact arithmetic the point returned for a box and a point outside it is the nearest one of the box. For a point inside, the returned point is the nearest one of the surface and the returned normal is the outward normal of its face, so the point is reached by moving along the normal by the distance to it; but the returned number is the distance to the face on the negative z side, whichever face is the nearest.", "quantifier": "All boxes and points over the reals", "why_tests_cant": "Real-valued inputs; tests sample a few", "anchors": ["src/edyn/math/geom.cpp: closest_point_box_outside, closest_point_box_inside"]}
{"id": "C62", "title": "Intersections of lines and circles in the plane", "statement": "In exact arithmetic, when the intersection of a line and a circle reports no point or two points, these are exactly the points they share; when it reports one, as for a tangent, the reported parameter is in general not on the circle. For two circles that are not nearly concentric, or of which the first is the larger one, exactly the shared points are reported; for a circle in the middle of a larger second one, two points are reported though none is shared.", "quantifier": "All lines, centres and radii over the reals", "why_tests_cant": "Real-valued inputs; tangents are a set of measure zero", "anchors": ["src/edyn/math/geom.cpp: intersect_line_circle, intersect_circle_circle"]}
{"id": "C63", "title": "Raycasts: spheres", "statement": "In exact arithmetic a ray of non-zero length that hits a sphere is reported at the first point of the half-line from the start of the ray that is in the sphere, and a miss means that there is no such point; if the ray starts outside, the normal is the outward one. The hit may lie beyond the end of the ray: the fraction is then greater than one.", "quantifier": "All rays, centres and radii over the reals", "why_tests_cant": "Real-valued inputs; tests sample a few rays", "anchors": ["src/edyn/collision/raycast.cpp: shape_raycast(sphere_shape)", "src/edyn/math/geom.cpp: intersect_ray_sphere"]}
{"id": "C64", "title": "Raycasts: boxes", "statement": "In exact arithmetic a ray along each axis of the box either parallel or beyond the tolerance is reported at the first point of the whole line that is in the box, and a miss means that the line misses the box; if that point is not behind the start of the ray, the normal is the outward one of a face the ray enters. Boxes behind the start are reported, with a negative fraction, and so are boxes that contain the start. A ray of zero length inside a box fails an assertion.", "quantifier": "All boxes, placements and rays over the reals, up to size 10^20", "why_tests_cant": "Real-valued inputs with twenty-seven sign cases; tests sample a few rays", "anchors": ["src/edyn/collision/raycast.cpp: shape_raycast(box_shape)"]}
{"id": "C65", "title": "Raycasts: polyhedra", "statement": "In exact arithmetic a ray that is parallel to no face of a convex polyhedron is reported at the first point of the ray that is in the polyhedron, a miss means that there is none, and the normal is the outward one if the ray starts outside. A ray parallel to a face is treated the wrong way round: it misses whenever it starts behind that face, even if it goes through the polyhedron, and it may hit although it passes outside of the face.", "quantifier": "All polyhedra given by any number of faces, all placements and rays over the reals", "why_tests_cant": "Unbounded number of faces, real-valued inputs", "anchors": ["src/edyn/collision/raycast.cpp: shape_raycast(polyhedron_shape)"]}
{"id": "C66", "title": "Raycasts: cylinders and capsules", "statement": "In exact arithmetic, for a ray that starts outside: a hit on a cylinder or capsule at a fraction that is not negative is the first point of the half-line that is in it; a miss of a capsule means that the half-line misses, and a miss of a cylinder that it meets at most its end faces; the normal of an end face is the outward one. The normal reported for the side of a cylinder or capsule is perpendicular to the ray, hence not the outward one except for rays that only touch; a ray through the axis has no normal there; the normal of a hemisphere is not the outward one; a ray parallel to the axis of a capsule never gets a hit; a ray along an end face of a cylinder and beside it divides by zero.", "quantifier": "All sizes, placements and rays over the reals, beyond the tolerance for parallel lines", "why_tests_cant": "Real-valued inputs with many cases; tests check a few fractions and no oblique normals", "anchors": ["src/edyn/collision/raycast.cpp: shape_raycast(cylinder_shape), shape_raycast(capsule_shape)", "src/edyn/math/geom.cpp: intersect_ray_cylinder"]}
{"id": "C67", "title": "Raycasts: planes and meshes", "statement": "In exact arithmetic a triangle whose plane the segment crosses by more than the tolerance is hit exactly where the segment crosses it, so a mesh is hit at the first of its points on the segment, with the normal of a triangle that contains it. A segment in the plane of a triangle hits only if it starts on the triangle. A plane is hit where the whole line crosses it, also behind the start or beyond the end.", "quantifier": "All meshes of any number of triangles, all planes and segments over the reals", "why_tests_cant": "Unbounded meshes, real-valued inputs", "anchors": ["src/edyn/collision/raycast.cpp: shape_raycast(plane_shape), shape_raycast(mesh_shape)", "src/edyn/math/geom.cpp: intersect_segment_triangle"]}
{"id": "C68", "title": "Raycasts: the nearest of several", "statement": "A ray against several bodies reports the one with the least fraction, the first visited of them if several have it, and none only if none is hit; likewise for the parts of a compound, whose normal is turned with the body. So for spheres, the result is the first point of the half-line in any of them. A box around the start wins over what lies ahead, since its fraction is negative.", "quantifier": "All numbers of bodies and parts, all shapes and placements", "why_tests_cant": "Unbounded numbers of bodies; order of visits varies", "anchors": ["src/edyn/collision/raycast.cpp: raycast, shape_raycast(compound_shape)"]}
{"id": "C69", "title": "Bounding boxes of shapes", "statement": "In exact arithmetic the bounding box of a sphere, box, capsule, polyhedron or cylinder contains all of the shape at its position and orientation and is contained in every axis-aligned box that does, so the broadphase neither misses a body nor sees more of it than a box can help. Exceptions: a cylinder whose axis is nearly but not exactly an axis of the world sticks out of its box, by no more than twice its radius times the square root of the tolerance; the half-space of a plane is cut off 99999 away from its foot; the box of a mesh is only moved, not turned; a polyhedron without vertices gets a box that is inside out.", "quantifier": "All sizes, positions, orientations and numbers of vertices over the reals", "why_tests_cant": "Real-valued inputs; tests sample a few orientations", "anchors": ["src/edyn/util/aabb_util.cpp: plane_aabb, box_aabb, sphere_aabb, cylinder_aabb, capsule_aabb, point_cloud_aabb, shape_aabb", "src/edyn/sys/update_aabbs.cpp"]}
{"id": "C70", "title": "Bounding boxes of compounds, islands and turned boxes", "statement": "In exact arithmetic turning an axis-aligned box into or out of the space of a body gives the least axis-aligned box around the turned one. The box of a compound contains all of its parts and is the least one around the turned boxes of its parts, though not in general around the parts themselves; without parts it is undefined. The box of an island is the least one around the boxes of its procedural bodies and is unchanged if none of them has one.", "quantifier": "All boxes, placements, numbers of parts and of bodies over the reals", "why_tests_cant": "Unbounded numbers of parts, real-valued inputs", "anchors": ["src/edyn/util/aabb_util.cpp: aabb_to_world_space, aabb_to_object_space, shape_aabb(compound_shape)", "src/edyn/shapes/compound_shape.cpp", "src/edyn/sys/update_aabbs.cpp: update_island_aabbs"]}
{"id": "C71", "title": "Support points", "statement": "In exact arithmetic the support point of a box, of a set of points, of a cylinder or of a disc along a direction is a point of it, and none of its points is further along the direction; for a cylinder or disc and a direction within the tolerance of its axis but not along it, some may be, by no more than twice the radius times the square root of the tolerance. The support value of a capsule along a unit vector is the greatest value over it. The search over the neighbours of the vertices of a polyhedron ends, at a vertex with no neighbour further along, which is the furthest point of the polyhedron if the edges at each vertex span it, but not otherwise. The support feature of a triangle is a vertex that stands out by the threshold, an edge with both ends within it and the third vertex below, or the face; its value is the greatest one for a vertex, for the face and for the first edge, and below it by less than the threshold for the others.", "quantifier": "All sizes, directions, vertices and neighbour tables over the reals", "why_tests_cant": "Unbounded numbers of vertices, real-valued directions", "anchors": ["src/edyn/util/shape_util.cpp: support_point_box, polyhedron_support_projection, capsule_support_projection, cylinder_support_point, cylinder_support_projection", "include/edyn/util/shape_util.hpp: point_cloud_support_point, point_cloud_support_projection", "src/edyn/math/geom.cpp: support_point_circle", "src/edyn/math/triangle.cpp: get_triangle_support_feature"]}
{"id": "C72", "title": "Contact points of spheres and capsules", "statement": "In exact arithmetic a contact point of two spheres, of a capsule and a sphere or of two capsules has its two pivots on the two solids, the second one reached from the first one by the reported signed distance along the unit normal, and no point of the first solid is less than that distance from any point of the second one along the normal: while apart they are the nearest points, and when they overlap moving one along the normal by the depth separates them. No point is reported only if the solids are further apart than the threshold. Exceptions: the second point of two parallel capsules of which the second starts past the middle of the first one; a sphere centred on the axis of a capsule along z, and capsules along y whose axes overlap, are pushed along the axis; distances between zero and the tolerance are not covered; a capsule no longer than the tolerance fails an assertion against a sphere and reads an unset variable against a capsule.", "quantifier": "All sizes, axes, positions, orientations and thresholds over the reals", "why_tests_cant": "Real-valued inputs with degenerate cases; tests sample a few configurations", "anchors": ["src/edyn/collision/collide/collide_sphere_sphere.cpp", "src/edyn/collision/collide/collide_capsule_sphere.cpp", "src/edyn/collision/collide/collide_capsule_capsule.cpp"]}
{"id": "C73", "title": "Contact points with planes", "statement": "In exact arithmetic the contact points of a capsule, cylinder or box and a plane are points of the solid with the points of the plane below them and their signed heights as distances, none are reported exactly if all of the solid is higher than the threshold, and one of them is the lowest point of the solid (for a cylinder, up to the support tolerance). For a capsule or cylinder the pivots on the plane are right only if the body of the plane is at the origin and not turned. For a sphere the threshold is not used, so there is no point until it touches, and the pivot on the plane is right only if the body of the plane is at twice the foot of the plane, so for a body at the origin only if the plane goes through the origin.", "quantifier": "All sizes, positions, orientations, planes and thresholds over the reals", "why_tests_cant": "Real-valued inputs; tests sample a few configurations", "anchors": ["src/edyn/collision/collide/collide_sphere_plane.cpp", "src/edyn/collision/collide/collide_capsule_plane.cpp", "src/edyn/collision/collide/collide_cylinder_plane.cpp", "src/edyn/collision/collide/collide_box_plane.cpp"]}
{"id": "C74", "title": "Contact points of spheres with boxes and cylinders", "statement": "In exact arithmetic the contact point of a sphere and a box whose centre is outside of the box by more than the tolerance, or of a cylinder and a sphere, is a pair of points of the two solids at the reported signed distance along the unit normal, no point of one is less than it from the other along the normal, and none is reported only if they are further apart than the threshold. Exceptions: with the centre inside the box, pivots and normal are those of the nearest face but the distance is that of the face on the negative z side; a centre outside by less than the tolerance fails an assertion; a sphere centred on the axis of a cylinder is pushed along y, so along the axis if the cylinder is upright; a cylinder no longer than the tolerance fails an assertion.", "quantifier": "All sizes, axes, positions, orientations and thresholds over the reals", "why_tests_cant": "Real-valued inputs with degenerate cases; tests sample a few configurations", "anchors": ["src/edyn/collision/collide/collide_sphere_box.cpp", "src/edyn/collision/collide/collide_cylinder_sphere.cpp"]}
{"id": "C75", "title": "Support features of boxes", "statement": "In exact arithmetic the support feature of a box along a direction is a vertex, an edge or a face of the face that points most along the direction; the returned value is the greatest one over the box; a corner of the feature has it and all of its corners are within the threshold of it. It is a vertex exactly of a face whose other corners are below the threshold, the face only if its four corners are within it, and otherwise an edge whose two ends are no lower than the other corners of the face.", "quantifier": "All boxes, directions and thresholds over the reals", "why_tests_cant": "Real-valued inputs with ties; index tables of twelve edges and six faces", "anchors": ["src/edyn/shapes/box_shape.cpp: support_feature, get_vertex, get_edge_index, support_face_index", "include/edyn/shapes/box_shape.hpp: box_edge_indices, box_face_indices"]}
{"id": "C76", "title": "Contact points of compounds", "statement": "The contact points of a compound are those of its parts, each part at its own place in the compound: as points of the world, with normals and distances, they are the points that the part alone would get. Against a plane, a part that is left out is further than 0.02 from it. Against any other shape or compound, a part that is left out has no point in common with it, but may be within the threshold: a sphere 0.01 away from another sphere gets a point, the same sphere as the part of a compound gets none.", "quantifier": "All numbers of parts, all shapes, positions and orientations, whatever function collides the parts", "why_tests_cant": "Unbounded numbers of parts, real-valued placements", "anchors": ["src/edyn/collision/collide/collide_compound_plane.cpp", "src/edyn/collision/collide/collide_compound_compound.cpp", "include/edyn/collision/collide.hpp: collide(compound_shape, T)"]}
{"id": "C77", "title": "Constraints and momentum", "statement": "In exact arithmetic, applying an impulse of any size along any row that a constraint prepares — its own rows and the friction, rolling and spinning rows of contacts — leaves the total linear momentum of the two bodies as it was. It also leaves the total angular momentum as it was when the constraint acts along one line: always for gravity; for distance and soft distance constraints unless the pivots are within the tolerance but apart; for hinge, point and contact constraints when the pivots coincide; for generic and CV joints when the pivots coincide and the axes are aligned; for a cone constraint when the pivot is on the cone. Otherwise the angular momentum changes by the moment of the impulse about the gap between the pivots: a generic constraint used as a slider, with its bodies apart along the free axis, creates angular momentum. A body that is not dynamic is not moved.", "quantifier": "All constraint types, configurations, bodies, impulses and rows", "why_tests_cant": "Real-valued states of two bodies and every mix of rows; conservation is a law over all of them", "anchors": ["src/edyn/constraints/*.cpp: prepare", "include/edyn/constraints/constraint_row.hpp", "src/edyn/dynamics/island_solver.cpp: apply_row_impulse"]}
{"id": "C78", "title": "What the rows of constraints measure", "statement": "For bodies on any rigid motion, the relative velocity along a prepared row is the rate of change of what the constraint is about: the distance of the centres (gravity), half of the squared distance less the rest length squared (distance), the distance of the pivots (soft distance), the components of the gap of the pivots (point, hinge), the tilt of one axis against the other and the rotation about it when the axes are aligned (hinge), the separation along the normal, fixed in the world or, when the points differ only along it, to a body, and the sliding velocities (contact), the swing angles (generic). The offset of a generic constraint along an axis is measured only up to the turning of the first body: its rate also has the component of the gap across the axis that the row leaves out, so a row may see no motion while the offset changes.", "quantifier": "All motions of two rigid bodies differentiable at the instant, all frames and pivots", "why_tests_cant": "Derivatives along arbitrary motions", "anchors": ["src/edyn/constraints/*.cpp: prepare", "include/edyn/math/quaternion.hpp: quaternion_derivative"]}
{"id": "C79", "title": "What the rows of constraints demand", "statement": "Each row asks for the speed that takes a fifth of its error in one step: the gap of a point constraint, half of the squared distance error of a distance constraint, the angle of a hinge towards the nearer limit or towards the rest angle of its spring, the angles of a generic constraint; nine tenths for the offset inside the limits of a generic constraint. Rows of limits only push away from the nearer limit; springs push at most with their force. A contact lets bodies that are apart approach by at most a fifth of their distance in a step and bodies that touch not at all; the impulse of a soft contact is limited by the force of its spring and damper, which never pulls. The motor of a hinge asks for a fifth of the configured speed, not for the speed; a rotational degree of freedom of a generic constraint that is locked at an angle other than zero is driven to zero.", "quantifier": "All hinge, generic, point, distance and contact configurations, bodies and positive time steps", "why_tests_cant": "Real-valued configurations and states", "anchors": ["src/edyn/constraints/hinge_constraint.cpp: prepare", "src/edyn/constraints/generic_constraint.cpp: prepare", "src/edyn/constraints/point_constraint.cpp: prepare", "src/edyn/constraints/distance_constraint.cpp: prepare", "src/edyn/constraints/contact_constraint.cpp: prepare", "src/edyn/dynamics/row_cache.cpp"]}
{"id": "C80", "title": "Angles of joints over several turns", "statement": "The angle that a hinge or a CV joint keeps from step to step is congruent to the measured one and moves by at most half a turn in a step; so if the bodies turn by less than half a turn between steps, then after any number of steps the kept angle is the true one, with all its turns. The measured angle of a hinge with aligned axes is the angle from the second axis of one frame to the second axis of the other. A hinge with limits or a spring stores the kept angle. If the bodies turn by more in one step, the angle is off by whole turns.", "quantifier": "All sequences of measurements of any length, all frames and orientations", "why_tests_cant": "Unbounded executions and real angles", "anchors": ["include/edyn/math/math.hpp: normalize_angle", "src/edyn/constraints/hinge_constraint.cpp: prepare", "src/edyn/constraints/cvjoint_constraint.cpp: update_angle"]}
{"id": "C81", "title": "Cone constraints", "statement": "In exact arithmetic, for a pivot off the axis of the cone: the error of a cone constraint is positive exactly outside of the elliptic cone, negative inside, and zero on it, growing linearly with the distance beyond the cone along its axis. For a pivot not behind the tip the point of the cone it is compared with is on the cone, and the impulse is along the direction in which the pivot leaves the cone fastest. For a pivot behind the tip — further back than it is out — the direction is reversed, and the constraint pushes the pivot away.", "quantifier": "All pivots and half angles over the reals", "why_tests_cant": "Real-valued inputs, a gradient over all directions", "anchors": ["src/edyn/constraints/cone_constraint.cpp: prepare"]}
{"id": "C82", "title": "Corrections of positions", "statement": "Correcting the positions of two bodies by a hinge, a CV joint, a generic constraint or a contact keeps the orientations normalized, the origins and the world-space inertias consistent with position and orientation, the mass properties, the centre of mass of the pair, and any body that cannot be moved. To first order one correction removes a fifth of the error; exactly a fifth of the gap of the pivots or of the depth of a contact if the bodies do not rotate. Contacts that are not penetrating and offsets inside their limits are left alone. A CV joint between two bodies that cannot rotate divides by zero.", "quantifier": "All constraints of those types, bodies, pivots and frames", "why_tests_cant": "Real-valued states; invariants over every correction", "anchors": ["include/edyn/dynamics/position_solver.hpp", "src/edyn/constraints/*.cpp: solve_position"]}
{"id": "C83", "title": "What a client reports to the server", "statement": "Over any execution of a networked client, each entity is reported at most once as created and at most once as destroyed. Reported as created are exactly the entities the user made networked, and as destroyed exactly the networked entities that an action of the user took away, including the constraints and contacts of destroyed bodies; entities the server brought or took away are never reported back as such. Reports are sent only by an update, which leaves none pending, and an entity's creation is reported before its destruction. Destroying an entity before the update that reports its creation is undefined behaviour, and networked entities destroyed inside the handler of the entity-entered signal are not reported.", "quantifier": "All executions of any length: user actions, updates and packets in any order", "why_tests_cant": "Unbounded interleavings of packets and user actions", "anchors": ["src/edyn/networking/sys/client_side.cpp: on_construct_networked_entity, on_destroy_networked_entity, process_client_created_entities, process_client_destroyed_entities"]}
{"id": "C84", "title": "Local counterparts of the server's entities", "statement": "At all times the correspondence between the server's entities and local ones is one to one. A packet that assigns the client or brings entities, and linking an asset, never change or drop a counterpart; every new one is announced to the server in that step and everything announced is new. After a create packet every entity of it has a counterpart, and new ones are networked entities that did not exist before. The server's answers add exactly the pairs whose local entity lives. After a destroy or exit packet none of its entities has a counterpart; only they and the entities listed by their assets lose it, what loses it is destroyed, nothing else dies but the edges of destroyed bodies, and the user is told beforehand in order. Other steps leave the correspondence alone, except that a user who destroys a networked local entity makes the client forget the unrelated entity whose identifier on the server is the same number, while the entity's own counterpart stays, so that a later creation by the server is lost. The exit of an asset that was never linked is undefined behaviour.", "quantifier": "All executions of any length and all packets", "why_tests_cant": "Unbounded histories of insertions and removals in two maps", "anchors": ["src/edyn/networking/sys/client_side.cpp: process_packet, on_destroy_networked_entity, client_link_asset_impl", "include/edyn/networking/util/process_update_entity_map_packet.hpp", "include/edyn/util/entity_map.hpp"]}
{"id": "C85", "title": "Which entities a client owns", "statement": "If no create packet changes the owner of an entity that has one, and the client is assigned while no entity has an owner, then at all times the entities the client treats as its own are exactly those whose owner it is; an update gives the entities the user made to this client and changes no other owner. Entities reported before the client is assigned stay treated as owned, even after destruction; and when the server hands an entity over, the client does not treat it as its own and its destruction is undefined behaviour.", "quantifier": "All executions of any length", "why_tests_cant": "An invariant over all interleavings of packets and user actions", "anchors": ["src/edyn/networking/sys/client_side.cpp: on_construct_entity_owner, on_destroy_entity_owner, process_client_created_entities, client_created", "include/edyn/networking/util/client_snapshot_importer.hpp"]}
{"id": "C86", "title": "What the extrapolation worker knows", "statement": "After each update of a client, the extrapolation worker has exactly the bodies, external entities and constraints of the simulation, contacts left out. An update hands over exactly the simulated entities the worker does not have, each once, naming exactly the owned ones among them as such; when an extrapolation request is sent, the worker already has all entities of the simulation and none that is gone. Nothing is sent to the worker outside an update.", "quantifier": "All executions of any length: user actions, updates and packets in any order", "why_tests_cant": "Unbounded interleavings; set equality over all histories", "anchors": ["src/edyn/networking/sys/client_side.cpp: on_construct_shared_entity, on_destroy_shared_entity, process_created_entities, process_destroyed_entities, dispatch_extrapolations, update_network_client"]}
{"id": "C87", "title": "Snapshots at a client", "statement": "A snapshot never fails. If one of its entities has no living counterpart it changes nothing. Otherwise the inputs of exactly the entities the client does not own are stored, under the instant the snapshot describes, and the snapshot is queued for extrapolation if it describes an instant more than a time step ago and extrapolation is enabled, and applied directly if not. Requests are sent in the order the snapshots arrived, each exactly once, and every update sends all that wait.", "quantifier": "All executions, snapshots, time stamps, clock differences and delays", "why_tests_cant": "Unbounded interleavings and integer times", "anchors": ["src/edyn/networking/sys/client_side.cpp: process_packet(registry_snapshot), dispatch_extrapolations"]}
{"id": "C88", "title": "Intersections of segments of the plane", "statement": "For segments whose cross product exceeds the tolerance, an intersection is reported exactly if they share a point, and both parameters give that point. Parallel segments on different lines have none. For segments on one line everything reported is shared, and the reported points enclose all shared ones, or lie within the tolerance of the single one reported; if the segments point the same way the two parameters of each pair give the same point. If they point in opposite ways the two parameters may belong to different points.", "quantifier": "All segments of the plane", "why_tests_cant": "Real-valued inputs; a statement about every point of both segments", "anchors": ["src/edyn/math/geom.cpp: intersect_segments"]}
{"id": "C89", "title": "Intersections of a line and a rectangle", "statement": "Every reported parameter gives a point on the boundary of the rectangle. The reported ones enclose all points of the line inside the rectangle, or lie within the tolerance of the single one, for lines parallel to an axis and for lines clearly oblique that miss the top left and bottom right corners. A line through those two corners is reported not to meet the rectangle at all.", "quantifier": "All lines exactly parallel to an axis or clearly not, and all rectangles of positive size", "why_tests_cant": "Real-valued inputs; a statement about every point of the line", "anchors": ["src/edyn/math/geom.cpp: intersect_line_aabb"]}
{"id": "C90", "title": "Nearest point of a convex polygon", "statement": "For a convex counter-clockwise polygon, if the query for the nearest point reports one, it lies in the polygon and no point of the polygon is nearer. For points strictly inside none is reported; and if no corner is acute and the point is not aligned with a corner across a side, none is reported only for points strictly inside. Aligned points and points beyond an acute corner may be taken to be inside. The test of membership of a polygon is right for all sides but the closing one, which it skips.", "quantifier": "All convex polygons with any number of corners and all points", "why_tests_cant": "Unbounded polygons; real-valued inputs; minimality over infinitely many points", "anchors": ["src/edyn/util/shape_util.cpp: closest_point_convex_polygon, point_inside_convex_polygon"]}
{"id": "C91", "title": "Convex hull of points of the plane", "statement": "The hull of at least four points terminates and selects existing points, each extreme among all in some direction. Either it has a leftmost and a rightmost point at least the tolerance apart and no point is right of one of its sides by more than the tolerance (times the length of the side), or the set is narrower than the tolerance and the hull is its highest and lowest point. Of up to three points all are selected, once each, in counter-clockwise order. The hull of no points names a point that does not exist.", "quantifier": "All finite sets of points within the range of a float and all positive tolerances", "why_tests_cant": "Unbounded sets; termination of the recursion; real-valued inputs", "anchors": ["src/edyn/util/shape_util.cpp: calculate_convex_hull, split_hull_edge"]}
{"id": "C92", "title": "Delay of the presentation", "statement": "With the asynchronous stepper, the delay by which the presentation trails the simulation is never negative and below 9/8 s plus a time step. It is driven by the last 48 observed lags since the last change of the pause, zeros before: an update after news of the simulation moves it, without overshooting, towards a multiple of the time step that is at least the mean plus the mean deviation of those lags and less than a step above it, and settles on it or within a step of it. Without news or while paused it stays; changing the pause clears it, and a paused update presents the state itself. A steady target is reached exactly after finitely many updates. The presented instant is the earlier of the clock minus the delay and a time step past the simulated instant, and goes back by at most ten microseconds between updates as long as the delay that is needed is at most a fifth of a second longer than the delay. When a much longer delay is needed, what is presented goes back in time.", "quantifier": "All executions of any length with a clock that does not go back and lies after the simulated instants; all time steps", "why_tests_cant": "Unbounded sequences of real-valued times", "anchors": ["src/edyn/simulation/stepper_async.cpp: calculate_presentation_delay, update, set_paused, on_step_update", "src/edyn/sys/update_presentation.cpp: update_presentation"]}
{"id": "C93", "title": "Presented transforms and hidden corrections", "statement": "An awake enabled procedural body is presented at its position plus velocity times the interpolation time, rotated about its angular velocity by the angle it turns in that time, then displaced by the remaining offset; its state is not changed. On a networked client corrections of the state do not show at once: the offset takes them up. Each update takes the share rate times time step (at most all) from the offset, drops it when small, and it is exactly gone after finitely many updates. A snapped presentation shows the state. Bodies without offset that are asleep, disabled or not procedural are shown as before. A body that falls asleep while an offset is shown stays displaced, and the offset of a body that is not procedural is added again at each update.", "quantifier": "All transforms, velocities, offsets, rates, and any number of updates", "why_tests_cant": "Real-valued inputs, unbounded sequences of updates", "anchors": ["src/edyn/sys/update_presentation.cpp", "include/edyn/networking/sys/accumulate_discontinuities.hpp"]}
{"id": "C94", "title": "Edges of triangle meshes", "statement": "Initializing a triangle mesh succeeds exactly if the indices are in range and no triangle is degenerate (cross product of two sides longer than the smallest normal tolerance). Then every side of every face is assigned one edge with the same end vertices, in either order, no two edges have the same ends, and every edge is the side of some face. The two faces of an edge are faces with that side; they are equal, and the edge is a boundary edge, exactly if a single face has it. If at most two faces meet at an edge, both are listed; if more do, those between the first and the last are not.", "quantifier": "All lists of vertices and triangles", "why_tests_cant": "Unbounded meshes, including ones that are not manifold", "anchors": ["src/edyn/shapes/triangle_mesh.cpp", "include/edyn/shapes/triangle_mesh.hpp"]}
{"id": "C95", "title": "Normals and convexity of triangle meshes", "statement": "After a successful initialization the normal of each face has unit length and is a positive multiple of the cross product of its sides. The adjacent normal of a side is the normal of the other face of its edge; at a boundary edge it has unit length, is orthogonal to the edge and points to the back and the outside of the face. Boundary edges are convex. An edge between two faces of consistent winding is convex exactly if the remaining corner of the second lies behind the plane of the first by more than a tolerance proportional to the distance of the corner from the edge, whichever face is looked at; then the corners of each face lie strictly behind the other.", "quantifier": "All lists of vertices and triangles", "why_tests_cant": "Real-valued inputs, unbounded meshes", "anchors": ["src/edyn/shapes/triangle_mesh.cpp"]}
{"id": "C96", "title": "Values of vertices on faces and edges of meshes", "statement": "Friction and restitution of a point of a face are the values of its vertices weighted by the barycentric coordinates of the projection of the point on the face; each point has such coordinates and the mesh finds exactly these. On an edge, for a given fraction the values of the ends are interpolated linearly. For a point at the fraction t of the edge the weight of the second end is t squared: exact at the ends, but different from the value of the face elsewhere, such as in the middle.", "quantifier": "All meshes, points and values", "why_tests_cant": "Real-valued inputs", "anchors": ["src/edyn/shapes/triangle_mesh.cpp"]}
{"id": "C97", "title": "Edges and neighbors of convex meshes", "statement": "Calculating the properties of a convex mesh gives one edge for each pair of vertices that are the ends of a side of some face, in either order. An edge is directed like the side of its first face. Its faces are those of its one or two sides; the second is missing exactly if there is a single side. It does not succeed if three sides have the same ends, and does if none do, faces have two or more vertices, indices are in range and no side is too short. In a mesh calculated for the first time the neighbors recorded for a vertex are the other ends of its sides, each once. Calculating again after changing the faces keeps the neighbors of before.", "quantifier": "All vertices, indices and faces", "why_tests_cant": "Unbounded meshes of any topology", "anchors": ["src/edyn/shapes/convex_mesh.cpp", "include/edyn/shapes/convex_mesh.hpp"]}
{"id": "C98", "title": "Normals, relevant directions and validation of convex meshes", "statement": "The normal of each face has unit length and the direction of the cross product of the first side and the next one that is not collinear to it; faces of collinear vertices get the vertical. Each face normal is within the tolerance of that of some relevant face, and the normals of different relevant faces are not; the same holds for edge directions, regardless of their sign, and relevant edges. Validation succeeds exactly if, up to the tolerance, the vertices of each face are in the plane through its first vertex and no vertex is in front of it.", "quantifier": "All vertices, indices and faces", "why_tests_cant": "Real-valued inputs, unbounded meshes", "anchors": ["src/edyn/shapes/convex_mesh.cpp"]}
