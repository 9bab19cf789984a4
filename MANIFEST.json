{
 "claims": [
  {
   "property": "C01",
   "status": "proved",
   "theorems": [
    "C01_entity_graph_refines_multigraph",
    "C01_second_self_loop_refuted"
   ],
   "note": "Refinement to an abstract multigraph along every legal history; the self-loop exclusion is shown necessary."
  },
  {
   "property": "C02",
   "status": "proved",
   "theorems": [
    "C02_free_list_refines_map"
   ],
   "note": "Refinement to a finite map along every history."
  },
  {
   "property": "C03",
   "status": "proved",
   "theorems": [
    "C03_connected_components",
    "C03_share_iff_path",
    "C03_edge_once",
    "C03_non_connecting",
    "C03_no_connecting_node"
   ],
   "note": "Histories without clear (after clear see C06)."
  },
  {
   "property": "C04",
   "status": "proved",
   "theorems": [
    "C04_is_single_connected_component"
   ],
   "note": "Histories without clear (after clear see C06)."
  },
  {
   "property": "C05",
   "status": "proved",
   "theorems": [
    "C05_traverse",
    "C05_reach",
    "C03_edge_once",
    "C03_non_connecting"
   ],
   "note": "Visitors and should_func are assumed not to mutate the graph."
  },
  {
   "property": "C06",
   "status": "proved",
   "theorems": [
    "C06_clear_empties",
    "C06_clear_leaves_ghosts",
    "C06_clear_is_not_fresh_refuted"
   ],
   "note": "General ghost theorem and a concrete witness."
  },
  {
   "property": "C07",
   "status": "proved",
   "theorems": [
    "C07_tree_holds_live_leaves",
    "C07_calls_return"
   ],
   "note": "Every history, every box type and cost arithmetic (no law assumed)."
  },
  {
   "property": "C08",
   "status": "proved",
   "theorems": [
    "C08_boxes_enclose",
    "C08_query_exact",
    "C08_query_misses_nothing",
    "C08_raycast_exact",
    "C08_raycast_misses_nothing"
   ],
   "note": "Query over any totally ordered scalar; raycast over exact rationals."
  },
  {
   "property": "C09",
   "status": "proved",
   "theorems": [
    "C09_move",
    "C09_stored_contains_given"
   ],
   "note": "Box laws are premises with instances over Z and Q."
  },
  {
   "property": "C10",
   "status": "proved",
   "theorems": [
    "C10_build_loses_nothing",
    "C10_query_exact",
    "C10_query_unbuilt_refuted",
    "C10_capacity_zero_refuted",
    "C10_no_boxes_refuted"
   ],
   "note": "std::sort is any function meeting the sort specification (insertion sort shown as an instance)."
  },
  {
   "property": "C11",
   "status": "proved",
   "theorems": [
    "C11_manifold_lookup"
   ],
   "note": "Refinement to the set of live manifolds along every history, including swaps of the bodies of a manifold."
  },
  {
   "property": "C12",
   "status": "proved",
   "theorems": [
    "C12_exclusion_mutual",
    "C12_should_collide_symmetric",
    "C12_capacity_refuted",
    "C12_self_exclusion_refuted",
    "C12_remove_without_list_refuted"
   ],
   "note": "The preconditions are shown necessary by witnesses."
  },
  {
   "property": "C13",
   "status": "proved",
   "theorems": [
    "C13_well_formed",
    "C13_progress",
    "C13_update",
    "C13_persistent",
    "C13_nearest"
   ],
   "note": "All states reached by updates, clears, creations and destructions; geometry is an arbitrary record of functions with distances below the largest scalar."
  },
  {
   "property": "C14",
   "status": "proved",
   "theorems": [
    "C14_slot_safe",
    "C14_maybe_add_point",
    "C14_best_score",
    "C14_longest_segment",
    "C14_nan_refuted",
    "C14_collinear_refuted"
   ],
   "note": "Index safety needs distances comparable with the largest scalar; shown necessary."
  },
  {
   "property": "C15",
   "status": "proved",
   "theorems": [
    "C15_swap_involution",
    "C15_swap_observed",
    "C15_swap_manifold",
    "C15_matching",
    "C15_flip_attachment_refuted",
    "C15_flip_attached",
    "C15_rolling_refuted",
    "C15_local_normal_refuted"
   ],
   "note": "The exceptions in the statement are the refuted theorems."
  },
  {
   "property": "C16",
   "status": "proved",
   "theorems": [
    "C16_async_coverage",
    "C16_wait_coverage"
   ],
   "note": "Every schedule of the jobs (sequentially consistent), both forms."
  },
  {
   "property": "C17",
   "status": "proved",
   "theorems": [
    "C17_async_completion",
    "C17_async_terminates",
    "C17_size_zero_refuted",
    "C17_no_workers_refuted",
    "C17_wait_completion",
    "C17_wait_terminates"
   ],
   "note": "Every schedule; termination as a bound on schedules of threads that can act plus absence of stuck states."
  },
  {
   "property": "C18",
   "status": "proved",
   "theorems": [
    "C18_fifo",
    "C18_no_lost_wakeup"
   ],
   "note": "Any number of threads, any programs of push/pop/try_pop/size, any wake-up choice, spurious wake-ups."
  },
  {
   "property": "C19",
   "status": "proved",
   "theorems": [
    "C19_jobs_run_in_order",
    "C19_stop_terminates",
    "C19_early_stop_refuted",
    "C19_stop_drops_jobs_refuted",
    "C19_size_underflow_refuted",
    "C19_least_busy",
    "C19_all_underflowed_refuted"
   ],
   "note": "Any number of client threads."
  },
  {
   "property": "C20",
   "status": "proved",
   "theorems": [
    "C20_messages_accounted",
    "C20_delivered_once_in_order",
    "C20_delivered_by_update",
    "C20_progress",
    "C20_unknown_dropped",
    "C20_shared_name_refuted",
    "C20_leftover_refuted",
    "C20_clear_refuted"
   ],
   "note": "Handlers that send are covered as interleaved sends."
  },
  {
   "property": "C21",
   "status": "proved",
   "theorems": [
    "C21_entity_map_bijection",
    "C21_precondition_needed"
   ],
   "note": "Every history incl. erase_if with any predicate."
  },
  {
   "property": "C22",
   "status": "proved",
   "theorems": [
    "replication_mirrors",
    "replication_mirrors_after_flush",
    "execution_never_fails",
    "repeated_create_is_harmless",
    "execution_leaves_others",
    "remap_then_execute",
    "mapping_replies",
    "forward_reference_refuted",
    "array_with_null_refuted",
    "accumulating_type_refuted"
   ],
   "note": "Unbounded histories with an observer; components as the members entt::meta exposes; merge function arbitrary."
  },
  {
   "property": "C23",
   "status": "proved",
   "theorems": [
    "operation_storage",
    "operation_alignment",
    "mixed_alignment_refuted",
    "unused_finish_refuted"
   ],
   "note": "Any sequence of sizes up to the maximum block size."
  },
  {
   "property": "C24",
   "status": "proved",
   "theorems": [
    "c24_round_trip",
    "c24_source_unchanged",
    "c24_vector_cut",
    "c24_string_cut",
    "c24_bits_cut",
    "c24_bits_size",
    "c24_source_cut_refuted",
    "c24_long_map",
    "c24_long_map_refuted",
    "c24_map_of_maps_refuted",
    "c24_map_target_refuted",
    "c24_variant_refuted"
   ],
   "note": "Types are a deep embedding closed under nesting; fundamental values are bit patterns of n bytes, little endian. User structs are sequences of their members."
  },
  {
   "property": "C25",
   "status": "proved",
   "theorems": [
    "c25_in_bounds",
    "c25_truncation_detected",
    "c25_fixed_output",
    "c25_fixed_output_same",
    "c25_defined_refuted"
   ],
   "note": "Memory exhaustion is not modelled: a count read from the input is at most 65535."
  },
  {
   "property": "C26",
   "status": "proved",
   "theorems": [
    "C26_synchronisation",
    "C26_responses",
    "C26_accuracy",
    "C26_offset_only_at_rounds_refuted"
   ],
   "note": "Any arithmetic, except the accuracy statement, which is over exact rationals. Counters are unbounded."
  },
  {
   "property": "C27",
   "status": "proved",
   "theorems": [
    "C27_history",
    "C27_resend",
    "C27_no_action_lost",
    "C27_server_merge",
    "C27_copy_after_first",
    "C27_nonpositive_time_refuted",
    "C27_equal_times_refuted",
    "C27_clock_change_refuted",
    "C27_missing_history_refuted",
    "C27_first_copy_refuted"
   ],
   "note": "Times are integers; the shift to local time is any monotone function; std::sort any sorted permutation."
  },
  {
   "property": "C28",
   "status": "proved",
   "theorems": [
    "C28_executed_once",
    "C28_single_entity",
    "C28_timely",
    "C28_two_entities_refuted"
   ],
   "note": "Fixed set of entities with histories and owners, any number of clients; times are integers."
  },
  {
   "property": "C29",
   "status": "proved",
   "theorems": [
    "C29_queue",
    "C29_exactly_once",
    "C29_global_order",
    "C29_no_future",
    "C29_late_packet_refuted"
   ],
   "note": "One client; times are integers."
  },
  {
   "property": "C30",
   "status": "proved",
   "theorems": [
    "C30_pending",
    "C30_empty",
    "C30_no_failure",
    "C30_full_refuted",
    "C30_real_time",
    "C30_lost_refuted",
    "C30_never_refuted"
   ],
   "note": "Times are integers (microseconds); the refutations show that a full list asserts, that a change made between two updates more than 402 ms apart is forgotten before export and that sub-millisecond updates never decay"
  },
  {
   "property": "C31",
   "status": "proved",
   "theorems": [
    "C31_round_trip",
    "C31_end_to_end",
    "C31_256_refuted",
    "C31_attribution_refuted",
    "C31_cut_refuted",
    "C31_component_index_refuted",
    "C31_entity_index_refuted",
    "C31_short_data_refuted"
   ],
   "note": "merge_component and map_child_entity are arbitrary functions per component type; the receiver mapping is any injective partial map"
  },
  {
   "property": "C32",
   "status": "proved",
   "theorems": [
    "C32_deltas",
    "C32_client_knows",
    "C32_sequential",
    "C32_ghost_refuted",
    "C32_enter_twice_refuted",
    "C32_destroyed_entry_refuted"
   ],
   "note": "Which entities are inside is an input; the asset of an entity does not change while it is known"
  },
  {
   "property": "C33",
   "status": "proved",
   "theorems": [
    "C33_destroy",
    "C33_leave",
    "C33_snapshot_effect",
    "C33_snapshot_received",
    "C33_snapshot_applied",
    "C33_foreign_body",
    "C33_history",
    "C33_create_frame",
    "C33_update_map",
    "C33_create_takes_over_refuted",
    "C33_full_ownership_ignored_refuted",
    "C33_stale_refuted",
    "C33_crash_refuted",
    "C33_given_entity_refuted",
    "C33_foreign_constraint_refuted"
   ],
   "note": "Uses the graph model of C01-C03. The parts of the first version of the claim that are false of the code are the _refuted theorems."
  },
  {
   "property": "C34",
   "status": "proved",
   "theorems": [
    "C34_computed",
    "C34_step",
    "C34_bounded",
    "C34_close",
    "C34_told",
    "C34_lowered_refuted"
   ],
   "note": "Exact rationals instead of doubles"
  },
  {
   "property": "C35",
   "status": "proved",
   "theorems": [
    "C35_steps_due",
    "C35_frame_rate_independent",
    "C35_clock",
    "C35_update",
    "C35_presentation",
    "C35_paused",
    "C35_worker_steps_due",
    "C35_worker_clock",
    "C35_worker_resume",
    "C35_worker_paused",
    "C35_pause_time_simulated_refuted",
    "C35_time_backwards_refuted",
    "C35_unpause_drops_refuted",
    "C35_cap_drops_refuted",
    "C35_time_source_refuted"
   ],
   "note": "Exact rationals instead of doubles."
  },
  {
   "property": "C36",
   "status": "proved",
   "theorems": [
    "C36_total",
    "C36_limit",
    "C36_limit_sync",
    "C36_evict",
    "C36_visited",
    "C36_reports",
    "C36_loads_in_turn",
    "C36_limit_async_refuted",
    "C36_page_of_limit_refuted",
    "C36_created_over_limit_refuted",
    "C36_thickness_refuted",
    "C36_clear_unreported_refuted",
    "C36_loads_overlap_refuted"
   ],
   "note": "One visit at a time; a load may finish at any later time. Visits racing on several threads are not modelled."
  },
  {
   "property": "C37",
   "status": "proved",
   "theorems": [
    "island_calls_total",
    "island_members",
    "island_connected",
    "island_exact",
    "island_exact_mixed_refuted",
    "static_destruction_refuted",
    "static_before_update_refuted",
    "static_does_not_split_refuted",
    "clear_new_constraint_refuted"
   ],
   "note": "Uses the graph model of C01-C03. Entities are not reused; edges are constraints (contact manifolds behave the same in the graph); the order of component pools on destruction is fixed."
  },
  {
   "property": "C38",
   "status": "proved",
   "theorems": [
    "island_sleeps_whole",
    "connected_sleep_together",
    "sleep_only_in_update",
    "sleep_only_when_calm",
    "new_edge_wakes",
    "destruction_wakes",
    "sleep_after_merge_refuted"
   ],
   "note": "Which bodies are fast is an input; times are integers."
  },
  {
   "property": "C39",
   "status": "proved",
   "theorems": [
    "rows_within_limits",
    "friction_within_limits",
    "contact_impulses_bounded",
    "contact_extras_impulses_bounded",
    "joint_impulses_bounded",
    "hinge_friction_bounded",
    "hinge_limit_pushes",
    "hinge_spring_bounded",
    "limits_without_iterations_refuted",
    "inverted_limits_refuted"
   ],
   "note": "Row limits for any number type with an irreflexive order; the friction circle for ordered fields with square roots."
  },
  {
   "property": "C40",
   "status": "proved",
   "theorems": [
    "C40_ordered_pairs",
    "C40_comparator_refuted",
    "C40_symmetric_lookup_refuted"
   ],
   "note": "std::map is a comparator-driven search tree with arbitrary in-order preserving rebalancing between operations."
  },
  {
   "property": "C41",
   "status": "proved",
   "theorems": [
    "C41_flat_nested_array"
   ],
   "note": "Every push sequence."
  },
  {
   "property": "C42",
   "status": "proved",
   "theorems": [
    "C42_own_answer_once",
    "C42_all_answered",
    "C42_drains",
    "C42_missed_ray_refuted",
    "C42_id_reuse_refuted"
   ],
   "note": "All interleavings; the worker state a query sees is arbitrary. The _refuted theorems are the exceptions the statement lists."
  },
  {
   "property": "C43",
   "status": "proved",
   "theorems": [
    "C43_child_lists",
    "C43_readd_refuted"
   ],
   "note": "Refinement to a list of children per parent along every history."
  },
  {
   "property": "C44",
   "status": "proved",
   "theorems": [
    "C44_messages_in_order",
    "C44_requests",
    "C44_results",
    "C44_awake_handles_all",
    "C44_blocked_all_handled",
    "C44_stop",
    "C44_pending_waits_refuted",
    "C44_lost_wakeup_refuted",
    "C44_stop_lost_refuted",
    "C44_destroyed_while_running_refuted"
   ],
   "note": "All interleavings of the worker thread with any number of senders, sequentially consistent; the _refuted theorems are the exceptions the statement lists."
  },
  {
   "property": "C45",
   "status": "proved",
   "theorems": [
    "C45_narrowphase_same"
   ],
   "note": "detect does not depend on contact state; the ranges are atomic per manifold, which touch disjoint components."
  },
  {
   "property": "C46",
   "status": "proved",
   "theorems": [
    "C46_window",
    "C46_between_steps_once",
    "C46_none_missed",
    "C46_on_step_twice",
    "C46_on_step_refuted",
    "C46_latest",
    "C46_erase",
    "C46_erased_input_refuted"
   ],
   "note": "One entity history; times are integers, so step times are exact."
  },
  {
   "property": "C47",
   "status": "proved",
   "theorems": [
    "impulses_come_back",
    "rows_keep_their_constraint",
    "same_number_of_values",
    "point_friction_at_rest_refuted",
    "generic_rows_overflow_refuted",
    "ninth_constraint_refuted",
    "bend_damping_ignored_refuted"
   ],
   "note": "No law of arithmetic is used. Jacobians and geometric quantities are arbitrary inputs."
  },
  {
   "property": "C48",
   "status": "proved",
   "theorems": [
    "velocities_match_impulses",
    "momentum_conserved",
    "fixed_bodies_stay"
   ],
   "note": "Ordered field."
  },
  {
   "property": "C49",
   "status": "proved",
   "theorems": [
    "solved_row_complementary",
    "lone_row_converges"
   ],
   "note": "Ordered field."
  },
  {
   "property": "C50",
   "status": "proved",
   "theorems": [
    "cleared_starts_from_zero",
    "clear_generic_refuted",
    "clear_bump_stop_refuted"
   ],
   "note": "No law of arithmetic is used."
  },
  {
   "property": "C51",
   "status": "proved",
   "theorems": [
    "C51_ends",
    "C51_catches_up",
    "C51_zero_step_refuted"
   ],
   "note": "Arbitrary clock; times are integers."
  },
  {
   "property": "C52",
   "status": "proved",
   "theorems": [
    "C52_any_schedule",
    "C52_same_as_sequential",
    "C52_order_irrelevant",
    "C52_ends",
    "C52_iterations_refuted",
    "C52_shared_body_refuted"
   ],
   "note": "All schedules, one job is one step; what the solver does to an island is an arbitrary function with the stated footprint. The _refuted theorems show that the preconditions are needed."
  },
  {
   "property": "C53",
   "status": "proved",
   "theorems": [
    "C53_calls_return",
    "C53_threads_do_not_matter",
    "C53_update_finds_pairs",
    "C53_moving_bodies_never_missed",
    "C53_update_changes",
    "C53_manifolds_are_near",
    "C53_one_manifold_per_pair",
    "C53_query",
    "C53_removed_shape_is_forgotten_refuted",
    "C53_shape_may_be_changed_before_update_refuted",
    "C53_moved_static_bodies_collide_refuted",
    "C53_kinematic_meets_sleeping_body_refuted"
   ],
   "note": "Islands' AABB tree and the contact points of destroyed manifolds are left out. The _refuted theorems are the exceptions the statement lists."
  },
  {
   "property": "C54",
   "status": "proved",
   "theorems": [
    "C54_unit_quaternion_rotates",
    "C54_matrix_of_quaternion",
    "C54_scaled_quaternion_refuted",
    "C54_frames"
   ],
   "note": "Reals instead of floats."
  },
  {
   "property": "C55",
   "status": "proved",
   "theorems": [
    "C55_matrix_to_quaternion",
    "C55_quaternion_round_trip",
    "C55_inverse",
    "C55_symmetric_inverse",
    "C55_euler_angles",
    "C55_euler_product"
   ],
   "note": "Reals instead of floats."
  },
  {
   "property": "C56",
   "status": "proved",
   "theorems": [
    "C56_axis_angle",
    "C56_unit_axis_angle",
    "C56_axis_angle_back",
    "C56_integrate",
    "C56_shortest_arc",
    "C56_tangents",
    "C56_tangent_basis",
    "C56_angle_between",
    "C56_angle_between_refuted",
    "C56_slerp",
    "C56_slerp_refuted"
   ],
   "note": "Reals instead of floats. The _refuted theorems are the exceptions the statement lists."
  },
  {
   "property": "C57",
   "status": "proved",
   "theorems": [
    "C57_volume",
    "C57_mesh_total",
    "C57_volume_moved",
    "C57_centroid",
    "C57_recentred",
    "C57_box_mesh",
    "C57_compound"
   ],
   "note": "Reals instead of floats. Volumes are iterated integrals; solids bounded by a mesh are signed sums of tetrahedra."
  },
  {
   "property": "C58",
   "status": "proved",
   "theorems": [
    "C58_plain",
    "C58_unique",
    "C58_hollow_cylinder",
    "C58_capsule_x",
    "C58_capsule_refuted",
    "C58_capsule_axis",
    "C58_polyhedron",
    "C58_polyhedron_refuted",
    "C58_shift",
    "C58_compound",
    "C58_world"
   ],
   "note": "Reals instead of floats. The _refuted theorems are the exceptions the statement lists; overlapping parts of a compound count twice."
  },
  {
   "property": "C59",
   "status": "proved",
   "theorems": [
    "C59_apply",
    "C59_last",
    "C59_set_origin",
    "C59_origin",
    "C59_reuse_refuted"
   ],
   "note": "Reals instead of floats; static bodies are left out. The _refuted theorem is the exception the statement lists."
  },
  {
   "property": "C60",
   "status": "proved",
   "theorems": [
    "C60_segment",
    "C60_line",
    "C60_line_distance",
    "C60_lines",
    "C60_segments",
    "C60_second_pair",
    "C60_second_pair_refuted",
    "C60_disc",
    "C60_disc_defined"
   ],
   "note": "Reals instead of floats. Closest points of circles to lines and to other circles (Newton iterations) are left out."
  },
  {
   "property": "C61",
   "status": "proved",
   "theorems": [
    "C61_outside",
    "C61_inside",
    "C61_inside_defined",
    "C61_inside_refuted"
   ],
   "note": "Reals instead of floats. The _refuted theorem is the exception the statement lists."
  },
  {
   "property": "C62",
   "status": "proved",
   "theorems": [
    "C62_line",
    "C62_line_defined",
    "C62_tangent_refuted",
    "C62_circles",
    "C62_circles_defined",
    "C62_concentric_refuted"
   ],
   "note": "Reals instead of floats. The _refuted theorems are the exceptions the statement lists."
  },
  {
   "property": "C63",
   "status": "proved",
   "theorems": [
    "C63_sphere",
    "C63_sphere_defined",
    "C63_beyond_refuted"
   ],
   "note": "Reals instead of floats. The _refuted theorem is the exception the statement lists."
  },
  {
   "property": "C64",
   "status": "proved",
   "theorems": [
    "C64_box",
    "C64_inside",
    "C64_no_length",
    "C64_behind_refuted"
   ],
   "note": "Reals instead of floats. The _refuted theorem is the exception the statement lists."
  },
  {
   "property": "C65",
   "status": "proved",
   "theorems": [
    "C65_polyhedron",
    "C65_polyhedron_defined",
    "C65_parallel_missed",
    "C65_cube_refuted",
    "C65_pyramid_refuted"
   ],
   "note": "Reals instead of floats; a polyhedron is the set of points behind its faces. The _refuted theorems are the exceptions the statement lists."
  },
  {
   "property": "C66",
   "status": "proved",
   "theorems": [
    "C66_cylinder",
    "C66_cylinder_defined",
    "C66_side_normal_wrong",
    "C66_axis_crossed",
    "C66_beside_cap",
    "C66_side_normal_refuted",
    "C66_axis_crossed_refuted",
    "C66_capsule",
    "C66_capsule_parallel",
    "C66_capsule_parallel_refuted",
    "C66_hemisphere_normal_refuted"
   ],
   "note": "Reals instead of floats. For capsules, rays through the rim of the first hemisphere are left out. The _refuted theorems are the exceptions the statement lists."
  },
  {
   "property": "C67",
   "status": "proved",
   "theorems": [
    "C67_plane",
    "C67_plane_behind_refuted",
    "C67_triangle",
    "C67_mesh",
    "C67_coplanar"
   ],
   "note": "Reals instead of floats. The triangles of a mesh are visited in a list; the tree that selects them is that of C10."
  },
  {
   "property": "C68",
   "status": "proved",
   "theorems": [
    "C68_compound",
    "C68_bodies",
    "C68_spheres",
    "C68_inside_refuted"
   ],
   "note": "Candidates are visited in a list; the tree that selects them is that of C09. The _refuted theorem is the exception the statement lists."
  },
  {
   "property": "C69",
   "status": "proved",
   "theorems": [
    "C69_least",
    "C69_cylinder_margin",
    "C69_rotated",
    "C69_plane",
    "C69_mesh",
    "C69_cylinder_refuted",
    "C69_plane_refuted",
    "C69_mesh_refuted",
    "C69_no_vertices_refuted"
   ],
   "note": "Reals instead of floats. The _refuted theorems are the exceptions the statement lists."
  },
  {
   "property": "C70",
   "status": "proved",
   "theorems": [
    "C70_to_world",
    "C70_to_object",
    "C70_compound",
    "C70_no_parts",
    "C70_island",
    "C70_compound_least_refuted"
   ],
   "note": "Reals instead of floats. The _refuted theorem is the exception the statement lists."
  },
  {
   "property": "C71",
   "status": "proved",
   "theorems": [
    "C71_box",
    "C71_points",
    "C71_capsule",
    "C71_cylinder",
    "C71_circle",
    "C71_polyhedron",
    "C71_triangle",
    "C71_triangle_refuted",
    "C71_stuck_refuted"
   ],
   "note": "Reals instead of floats. The _refuted theorems are the exceptions the statement lists."
  },
  {
   "property": "C72",
   "status": "proved",
   "theorems": [
    "C72_nearest",
    "C72_depth",
    "C72_spheres",
    "C72_capsule_sphere",
    "C72_capsule_sphere_short",
    "C72_capsules",
    "C72_capsules_short",
    "C72_capsule_axis_refuted",
    "C72_coaxial_refuted",
    "C72_capsules_short_refuted"
   ],
   "note": "Reals instead of floats. The _refuted theorems are the exceptions the statement lists."
  },
  {
   "property": "C73",
   "status": "proved",
   "theorems": [
    "C73_sphere",
    "C73_capsule",
    "C73_cylinder",
    "C73_box",
    "C73_sphere_pivot_refuted",
    "C73_sphere_threshold_refuted",
    "C73_moved_refuted"
   ],
   "note": "Reals instead of floats. A cylinder whose axis is within the tolerance of the normal of the plane but not along it is left out. The _refuted theorems are the exceptions the statement lists."
  },
  {
   "property": "C74",
   "status": "proved",
   "theorems": [
    "C74_box_outside",
    "C74_box_inside",
    "C74_box_near",
    "C74_cylinder",
    "C74_cylinder_flat",
    "C74_inside_refuted",
    "C74_axis_refuted"
   ],
   "note": "Reals instead of floats. For a cylinder, centres within the tolerance of the axis or of the surface of an end but not on it are left out. The _refuted theorems are the exceptions the statement lists."
  },
  {
   "property": "C75",
   "status": "proved",
   "theorems": [
    "C75_support"
   ],
   "note": "Reals instead of floats."
  },
  {
   "property": "C76",
   "status": "proved",
   "theorems": [
    "C76_place",
    "C76_plane",
    "C76_other",
    "C76_compounds",
    "C76_threshold_refuted"
   ],
   "note": "Reals instead of floats. Parts are visited in a list; the tree that selects them is that of C10. The _refuted theorem is the exception the statement lists."
  },
  {
   "property": "C77",
   "status": "proved",
   "theorems": [
    "C77_linear",
    "C77_angular",
    "C77_leak",
    "C77_static",
    "C77_slider_refuted"
   ],
   "note": "Reals instead of floats. The _refuted theorem is the exception the statement lists."
  },
  {
   "property": "C78",
   "status": "proved",
   "theorems": [
    "C78_turning",
    "C78_gravity",
    "C78_distance",
    "C78_soft_distance",
    "C78_point",
    "C78_hinge_pivot",
    "C78_hinge_tilt",
    "C78_hinge_turn",
    "C78_contact",
    "C78_generic",
    "C78_offset_refuted"
   ],
   "note": "Reals instead of floats. Pivots or axes within the tolerance of each other are left out where the direction between them is needed. The _refuted theorem is the exception the statement lists."
  },
  {
   "property": "C79",
   "status": "proved",
   "theorems": [
    "C79_point",
    "C79_soft_contact",
    "C79_distance",
    "C79_contact",
    "C79_hinge",
    "C79_generic",
    "C79_motor_refuted",
    "C79_locked_refuted"
   ],
   "note": "Reals instead of floats. Rows of CV joints and cones are not in this statement. The _refuted theorems are the exceptions the statement lists."
  },
  {
   "property": "C80",
   "status": "proved",
   "theorems": [
    "C80_step",
    "C80_turns",
    "C80_hinge",
    "C80_cv",
    "C80_measured",
    "C80_fast_refuted"
   ],
   "note": "Reals instead of floats."
  },
  {
   "property": "C81",
   "status": "proved",
   "theorems": [
    "C81_error",
    "C81_direction",
    "C81_behind",
    "C81_behind_refuted"
   ],
   "note": "Reals instead of floats. Pivots within the tolerance of the axis are left out."
  },
  {
   "property": "C82",
   "status": "proved",
   "theorems": [
    "C82_fair",
    "C82_amount",
    "C82_join",
    "C82_contact",
    "C82_inside",
    "C82_generic",
    "C82_twist",
    "C82_no_rotation_refuted"
   ],
   "note": "Reals instead of floats; division by zero is undefined behaviour in the model."
  },
  {
   "property": "C83",
   "status": "proved",
   "theorems": [
    "C83_reports",
    "C83_flush",
    "C83_only_updates",
    "C83_order",
    "C83_refuted_early_destroy",
    "C83_refuted_handler"
   ],
   "note": "The _refuted theorems are the exceptions the statement lists."
  },
  {
   "property": "C84",
   "status": "proved",
   "theorems": [
    "C84_one_to_one",
    "C84_announced",
    "C84_created",
    "C84_answers",
    "C84_destroyed",
    "C84_asset",
    "C84_user",
    "C84_others",
    "C84_refuted_stale",
    "C84_refuted_forgotten",
    "C84_refuted_unlinked"
   ],
   "note": "The _refuted theorems are the exceptions the statement lists."
  },
  {
   "property": "C85",
   "status": "proved",
   "theorems": [
    "C85_owned",
    "C85_update",
    "C85_refuted_early",
    "C85_refuted_transfer"
   ],
   "note": "The _refuted theorems are the exceptions the statement lists."
  },
  {
   "property": "C86",
   "status": "proved",
   "theorems": [
    "C86_same",
    "C86_handed",
    "C86_request",
    "C86_only_updates"
   ],
   "note": "The worker is the set of entities its messages name; the worker itself is modelled elsewhere."
  },
  {
   "property": "C87",
   "status": "proved",
   "theorems": [
    "C87_snapshot",
    "C87_requests",
    "C87_flush"
   ],
   "note": "Times are integers. Component values of the snapshot are not kept."
  },
  {
   "property": "C88",
   "status": "proved",
   "theorems": [
    "C88_crossing",
    "C88_parallel",
    "C88_collinear",
    "C88_refuted_opposite"
   ],
   "note": "Reals instead of floats. Cross products between zero and the tolerance are left out. The _refuted theorem is the exception the statement lists."
  },
  {
   "property": "C89",
   "status": "proved",
   "theorems": [
    "C89_oblique",
    "C89_vertical",
    "C89_horizontal",
    "C89_refuted_diagonal"
   ],
   "note": "Reals instead of floats. Lines off an axis by less than the tolerance are left out. The _refuted theorem is the exception the statement lists."
  },
  {
   "property": "C90",
   "status": "proved",
   "theorems": [
    "C90_nearest",
    "C90_inside",
    "C90_outside",
    "C90_member",
    "C90_refuted_aligned",
    "C90_refuted_acute",
    "C90_refuted_member"
   ],
   "note": "Reals instead of floats. The _refuted theorems are the exceptions the statement lists."
  },
  {
   "property": "C91",
   "status": "proved",
   "theorems": [
    "C91_hull",
    "C91_small",
    "C91_refuted_empty"
   ],
   "note": "Reals instead of floats; the recursion has fuel, and any above the number of points gives the result. The _refuted theorem is the exception the statement lists."
  },
  {
   "property": "C92",
   "status": "proved",
   "theorems": [
    "C92_bounds",
    "C92_samples",
    "C92_update",
    "C92_still",
    "C92_reaches",
    "C92_instant",
    "C92_forward",
    "C92_refuted_back"
   ],
   "note": "Reals instead of floats. The _refuted theorem is the exception the statement lists."
  },
  {
   "property": "C93",
   "status": "proved",
   "theorems": [
    "C93_shown",
    "C93_fades",
    "C93_gone",
    "C93_hidden",
    "C93_snap",
    "C93_rest",
    "C93_refuted_asleep",
    "C93_refuted_drift"
   ],
   "note": "Reals instead of floats. The _refuted theorems are the exceptions the statement lists."
  },
  {
   "property": "C94",
   "status": "proved",
   "theorems": [
    "C94_accepted",
    "C94_edges",
    "C94_faces",
    "C94_manifold",
    "C94_refuted_three"
   ],
   "note": "Reals instead of floats; the tree of the triangles is not modelled here. The _refuted theorem is the exception the statement lists."
  },
  {
   "property": "C95",
   "status": "proved",
   "theorems": [
    "C95_normals",
    "C95_adjacent",
    "C95_boundary",
    "C95_convex"
   ],
   "note": "Reals instead of floats."
  },
  {
   "property": "C96",
   "status": "proved",
   "theorems": [
    "C96_weights",
    "C96_every_point",
    "C96_face",
    "C96_edge",
    "C96_refuted_middle"
   ],
   "note": "Reals instead of floats. The _refuted theorem is the exception the statement lists."
  },
  {
   "property": "C97",
   "status": "proved",
   "theorems": [
    "C97_edges",
    "C97_accepted",
    "C97_neighbors",
    "C97_again"
   ],
   "note": "Reals instead of floats. The shift to the centroid is part of C57."
  },
  {
   "property": "C98",
   "status": "proved",
   "theorems": [
    "C98_normals",
    "C98_relevant_faces",
    "C98_relevant_edges",
    "C98_validate"
   ],
   "note": "Reals instead of floats."
  }
 ]
}