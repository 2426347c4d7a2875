{
 "claims": [
  {
   "property": "C01",
   "status": "proved",
   "theorems": [
    "C01_incidence_exact",
    "C01_incidence_exact_from"
   ],
   "note": "all histories of legal calls with arbitrary allocation failures; list containers"
  },
  {
   "property": "C02",
   "status": "proved",
   "theorems": [
    "C02_add_edge_failure_unchanged",
    "C02_add_edge_success",
    "C02_add_vertex_failure_unchanged"
   ],
   "note": "every combination of failing allocations"
  },
  {
   "property": "C03",
   "status": "proved",
   "theorems": [
    "C03_remove_edge_exact",
    "C03_remove_edges_between_exact",
    "C03_undirected_reverse_removal_refuted",
    "C03_aliased_removal_refuted"
   ],
   "note": "removal by descriptor and by endpoints; refuted: reversed endpoints in undirected graphs, aliased reference parameter"
  },
  {
   "property": "C04",
   "status": "proved",
   "theorems": [
    "C04_clear_then_remove_vertex",
    "C04_undirected_remove_vertex",
    "C04_remove_vertex_dangling_refuted"
   ],
   "note": "clear_vertex + remove_vertex; refuted: remove_vertex alone in directed/bidirectional graphs leaves dangling edges"
  },
  {
   "property": "C05",
   "status": "proved",
   "theorems": [
    "C05_csr_represents",
    "C05_csr_of_history",
    "C05_csr_without_reindex_refuted",
    "C05_out_edges_safe"
   ],
   "note": "any exact adjacency list with up-to-date indices; refuted without reindex"
  },
  {
   "property": "C06",
   "status": "proved",
   "theorems": [
    "C06_copy_same_shape",
    "C06_reindex_enables_copy",
    "C06_reindex_numbers",
    "C06_copy_without_reindex_refuted"
   ],
   "note": "requires up-to-date indices; refuted without them"
  },
  {
   "property": "C07",
   "status": "proved",
   "theorems": [
    "C07_bfs_exact",
    "C07_bfs_stopped",
    "C07_bfs_on_compressed"
   ],
   "note": "any graph with finitely many vertices, any pre-visited set, any stopping visitor; instance: compressed graph"
  },
  {
   "property": "C08",
   "status": "proved",
   "theorems": [
    "C08_dfs_exact",
    "C08_dfs_stopped",
    "C08_dfs_preorder_refuted",
    "C08_dfs_on_compressed"
   ],
   "note": "same generality as C07; refuted: finishing order is not that of a recursive depth-first search"
  },
  {
   "property": "C09",
   "status": "proved",
   "theorems": [
    "C09_dijkstra_exact",
    "C09_goals_exact",
    "C09_on_network",
    "C09_stops"
   ],
   "note": "abstract ordered lengths (covers rounded addition), any tie-breaking, any graph; end to end on the compressed graph"
  },
  {
   "property": "C10",
   "status": "proved",
   "theorems": [
    "C10_a_star_exact",
    "C10_inconsistent_refuted",
    "C10_unreachable_goal_refuted",
    "C10_stops"
   ],
   "note": "exact lengths (cancellation); refuted: merely admissible estimate, unreachable goal"
  },
  {
   "property": "C11",
   "status": "proved",
   "theorems": [
    "C11_bounded_dijkstra_sound",
    "C11_bounded_a_star_sound",
    "C11_bounded_complete_if",
    "C11_bounded_misses_goal_refuted",
    "C11_bounded_suboptimal_refuted"
   ],
   "note": "sound for any bound and stopping rule; complete when no path vertex can be overshot; refuted without that proviso"
  },
  {
   "property": "C12",
   "status": "proved",
   "theorems": [
    "C12_extract_along",
    "C12_parallel_shortest",
    "C12_query_routes",
    "C12_unreachable_goal_refuted"
   ],
   "note": "any path of a graph whose lines have lengths; with C09: route length is the shortest distance; refuted: vertex lists returned by A* for unreachable goals"
  },
  {
   "property": "C13",
   "status": "proved",
   "theorems": [
    "C13_history_independent",
    "C13_bounded_refuted",
    "C13_unreachable_refuted"
   ],
   "note": "unbounded Dijkstra queries, any history; refuted: bounded queries, A* with unreachable goals"
  },
  {
   "property": "C14",
   "status": "proved",
   "theorems": [
    "C14_viterbi_optimal",
    "C14_gap_refuted"
   ],
   "note": "Scores are any totally ordered set with minus infinity and a monotone addition, so rounded double addition is covered. C14_gap_refuted: a step without candidates after the first empties the policy."
  },
  {
   "property": "C15",
   "status": "proved",
   "theorems": [
    "C15_viterbi_well_formed",
    "C15_aborted_empty",
    "C15_gap_empties",
    "C15_on_hmm"
   ],
   "note": "Holds for every deadline behaviour; also proved for the tables built by hmm::set."
  },
  {
   "property": "C16",
   "status": "proved",
   "theorems": [
    "C16_simplify",
    "C16_pieces",
    "C16_joint",
    "C16_pairs",
    "C16_reversed",
    "C16_memory",
    "C16_retry",
    "C16_idempotent_refuted",
    "C16_out_of_memory_refuted"
   ],
   "note": "Proved for every properly drawn network (every road's line starts and ends at its end vertices' positions), every state of the tag store and every order in which the loop visits vertices. C16_idempotent_refuted: one pass may leave mergeable joints because decisions depend on later joints. C16_out_of_memory_refuted: if storing the joined road fails and the pass is retried, the two joined roads are lost; C16_memory and C16_retry give what survives a retry."
  },
  {
   "property": "C17",
   "status": "proved",
   "theorems": [
    "C17_largest_piece",
    "C17_largest_component",
    "C17_one_way_refuted",
    "C17_way_back_refuted",
    "C17_empty_refuted"
   ],
   "note": "C17_largest_piece describes exactly what is kept for every graph; C17_largest_component is the full claim for graphs in which every way has a way back. Refuted for one-way networks (order dependent pieces; neither weak nor strong components) and for the empty network (dereference of end())."
  },
  {
   "property": "C18",
   "status": "proved",
   "theorems": [
    "C18_nodes",
    "C18_first_copies",
    "C18_released",
    "C18_edges",
    "C18_distinct_edges",
    "C18_removed_edge",
    "C18_junction_refuted",
    "C18_third_copy_refuted",
    "C18_released_refuted",
    "C18_repeated_road_refuted"
   ],
   "note": "Proved for every properly drawn network, with and without joining. C18_nodes: what the pass does with nodes, roads and tags; C18_first_copies: without joining the result is the network with every node replaced by the first at its position; C18_edges: of equal roads the first is kept. freed=true models the C++ rule that released memory must not be read: C18_released and C18_removed_edge show exactly when the passes do so; C18_nodes covers freed=true when no later copy has two roads leading to it. Refuted: C18_junction, C18_third_copy (the position is forgotten after joining), C18_released, C18_repeated_road."
  },
  {
   "property": "C19",
   "status": "proved",
   "theorems": [
    "C19_simplify",
    "C19_out_of_range",
    "C19_negative_tolerance_refuted"
   ],
   "note": "Points are an arbitrary type, distances an ordered type with a total transitive order; the distance of a point to a segment is an arbitrary function. C19_simplify holds with tolerance >= 0 and a fuel that is at most the number of points; negative tolerance is refuted."
  },
  {
   "property": "C20",
   "status": "proved",
   "theorems": [
    "C20_rich",
    "C20_segments_agree",
    "C20_negative_tolerance_refuted",
    "C20_pause_refuted"
   ],
   "note": "Azimuth (undefined for a zero-length segment) and the turn test are arbitrary functions. C20_segments_agree relates the implementation on lists of segments to the one on lines."
  },
  {
   "property": "C21",
   "status": "proved",
   "theorems": [
    "C21_attaches",
    "C21_merge",
    "C21_size",
    "C21_associative",
    "C21_multi",
    "C21_multi_empty_refuted"
   ],
   "note": "rich_line, eager_rich_line and lazy_rich_line merges and the grouping merge of multi_rich_line, for arbitrary point types with a symmetric, transitive equality; refuted: an empty line between unattached lines makes the multi-line merge raise."
  },
  {
   "property": "C22",
   "status": "proved",
   "theorems": [
    "C22_eager",
    "C22_lazy",
    "C22_plain",
    "C22_operations",
    "C22_erase_last_refuted",
    "C22_assign_plain_refuted",
    "C22_assign_lazy_refuted",
    "C22_of_lazy_refuted",
    "C22_lazy_direction_refuted",
    "C22_failed_merge_refuted",
    "C22_multi_azimuth_refuted"
   ],
   "note": "Invariant over all histories of construction, assignment, merge, erase, slice and conversion; points, lengths and angles are abstract with any operations that respect point equality. Histories left out, each with a counterexample theorem: erase(last), assignment of a plain line, assignment of a lazy line to a non-empty eager line, conversion of a two-point merged lazy line, continuing after a merge that raised."
  },
  {
   "property": "C23",
   "status": "proved",
   "theorems": [
    "C23_eager",
    "C23_lazy",
    "C23_out_of_range",
    "C23_all_but_last_refuted"
   ],
   "note": "For every slice except (0, size-1), for which the stale length is proved as a counterexample; out-of-range arguments raise."
  },
  {
   "property": "C24",
   "status": "proved",
   "theorems": [
    "C24_accounts",
    "C24_correct_in_both",
    "C24_exact",
    "C24_empty",
    "C24_connected",
    "C24_repeated_turns_refuted",
    "C24_repeated_adds_refuted",
    "C24_gap_refuted"
   ],
   "note": "classification proved for all segment lists and all answers of the spatial index; exact multisets if neither prepared line turns back on a segment; refuted: repeated turns are counted once, gaps of a match on a straight road are closed"
  },
  {
   "property": "C25",
   "status": "proved",
   "theorems": [
    "C25_error",
    "C25_correct_range",
    "C25_correct",
    "C25_no_length",
    "C25_lengths",
    "C25_identical",
    "C25_identical_refuted"
   ],
   "note": "lengths over Q, infinity as a separate value"
  },
  {
   "property": "C26",
   "status": "proved",
   "theorems": [
    "C26_at_most_once",
    "C26_join_waits",
    "C26_exactly_once",
    "C26_no_deadlock",
    "C26_clients_after_stop",
    "C26_rests_only_when_done",
    "C26_lost_task_refuted"
   ],
   "note": "Transition system with separate atomic reads of the loop condition. The original wording (every accepted task is executed) is false: C26_lost_task_refuted shows a schedule, for every thread count, where a task accepted between the dispatcher's reads of empty() and closed() is never begun although join returns."
  },
  {
   "property": "C27",
   "status": "proved",
   "theorems": [
    "C27_dictionary",
    "C27_total",
    "C27_embedded_nul_refuted"
   ],
   "note": "For strings without embedded NUL; C27_embedded_nul_refuted shows that a NUL corrupts ids of other tags."
  },
  {
   "property": "C28",
   "status": "proved",
   "theorems": [
    "C28_tag_list",
    "C28_clone_node",
    "C28_clone_recovers",
    "C28_crash_consistent",
    "C28_retry_recovers",
    "C28_clone_growth_refuted"
   ],
   "note": "C28_clone_growth_refuted: cloning tag lists takes a reference into the mapped file before a nested retry that may re-map it."
  },
  {
   "property": "C29",
   "status": "proved",
   "theorems": [
    "C29_import",
    "C29_vertices_exactly_once",
    "C29_links",
    "C29_reversed_oneway_refuted",
    "C29_empty_way_refuted"
   ],
   "note": "allocation failures inside way() not modelled here (see C46); refuted: default filters give reversed one-way streets both directions; an empty kept way is undefined behaviour"
  },
  {
   "property": "C30",
   "status": "proved",
   "theorems": [
    "C30_lookup_history"
   ],
   "note": "all histories with failing allocations; std::sort by its contract"
  },
  {
   "property": "C31",
   "status": "proved",
   "theorems": [
    "C31_parse",
    "C31_round_trip",
    "C31_first_rule_decides",
    "C31_any_string",
    "C31_default_filters",
    "C31_key_with_equals_refuted"
   ],
   "note": "round trip, behaviour on every string, first matching rule; a key containing '=' does not round-trip (refuted)"
  },
  {
   "property": "C32",
   "status": "proved",
   "theorems": [
    "C32_one_track_per_id",
    "C32_line_tracks",
    "C32_row_ids",
    "C32_row_order_without_times",
    "C32_distinct_times_order",
    "C32_grouped_same",
    "C32_grouped_interleaved_refuted",
    "C32_equal_times_refuted",
    "C32_no_id_files_merged_refuted",
    "C32_whole_file_line_refuted"
   ],
   "note": "Csv.v. Parsing of numbers, times and WKT is outside the model; std::sort and the map's iteration order are contracts."
  },
  {
   "property": "C33",
   "status": "proved",
   "theorems": [
    "C33_import",
    "C33_unknown_id",
    "C33_missing_edge_message_refuted",
    "C33_first_id_minimum_refuted"
   ],
   "note": "EdgesList.v. Text parsing is outside the model."
  },
  {
   "property": "C34",
   "status": "proved",
   "theorems": [
    "C34_pairing",
    "C34_exactly_once",
    "C34_duplicate_match_refuted",
    "C34_duplicate_truth_refuted"
   ],
   "note": "Forwarder.v. The comparison itself is C24/C25."
  },
  {
   "property": "C35",
   "status": "proved",
   "theorems": [
    "C35_angle_diff",
    "C35_shortest",
    "C35_wide_angles_refuted"
   ],
   "note": "Over the rationals, with floating-point subtraction and addition abstracted as a rounding contract (monotone, odd, exact at 180 and 360, Sterbenz), instantiated by the identity and by a truncation; NaN and infinities are outside the model."
  },
  {
   "property": "C36",
   "status": "proved",
   "theorems": [
    "C36_next_pow2",
    "C36_overflow"
   ],
   "note": "On N with 64-bit wrap-around."
  },
  {
   "property": "C37",
   "status": "proved",
   "theorems": [
    "C37_round_trip",
    "C37_plain",
    "C37_parse_cases",
    "C37_second_parser_cases",
    "C37_is_number",
    "C37_second_parser_refuted"
   ],
   "note": "Characters are bytes (N). The second parser (string_to_bytes style) is refuted separately."
  },
  {
   "property": "C38",
   "status": "proved",
   "theorems": [
    "C38_median_odd",
    "C38_median_even",
    "C38_median_one",
    "C38_merge_or_throw",
    "C38_merge",
    "C38_no_tolerance",
    "C38_unique",
    "C38_median_even_refuted"
   ],
   "note": "nth_element is an oracle with its standard contract, the spatial index query an oracle for the box query; coordinates, distance and mean are abstract. C38_median_even needs nth_element to leave the next larger value behind the middle one, which the standard does not promise: C38_median_even_refuted. A tolerance of zero or less is refused by buffer_box."
  },
  {
   "property": "C39",
   "status": "proved",
   "theorems": [
    "C39_at",
    "C39_ends",
    "C39_subview",
    "C39_empty_refuted",
    "C39_last_negative_refuted",
    "C39_subview_unchecked_refuted"
   ],
   "note": "Containers are lists, positions are Z; out of bounds access is the UB outcome."
  },
  {
   "property": "C40",
   "status": "proved",
   "theorems": [
    "C40_latch",
    "C40_answer_latches",
    "C40_exact",
    "C40_no_limit"
   ],
   "note": "The clock is a parameter read at every query."
  },
  {
   "property": "C41",
   "status": "proved",
   "theorems": [
    "C41_codes",
    "C41_numbers",
    "C41_step",
    "C41_repeat",
    "C41_actions",
    "C41_next",
    "C41_ends",
    "C41_safe",
    "C41_size_refuted",
    "C41_size_one_refuted"
   ],
   "note": "Model Env.v. Rewards and routes are an oracle of internal state and action; which candidates and edges are read, the changes of state and action, the numbering and the cache are modelled. Proved for all histories of reset, set, actions and steps: numbering one-to-one and stable, a step equals the uncached rules, repetition gives the same result, offered actions, the possible next states, an episode ends within three steps a measurement, offered actions never undefined for state size 3 (the default). Refuted: with the admitted state size 5 the previous edge is looked up in the current candidate (single.hpp 421), which can be out of range (the reference is formed, then unused); state size 1 moves an iterator past the end (only through the library, the options refuse it)."
  },
  {
   "property": "C42",
   "status": "proved",
   "theorems": [
    "C42_detect",
    "C42_remove",
    "C42_detect_remove_refuted",
    "C42_set_refuted"
   ],
   "note": "Points, their equality and the comparison of azimuths are abstract. Both environments call the filter on a parameter already moved from (C42_set_refuted), and the detector erases the entry none from every set (C42_detect_remove_refuted)."
  },
  {
   "property": "C43",
   "status": "proved",
   "theorems": [
    "C43_split",
    "C43_round_trip",
    "C43_join",
    "C43_measurements",
    "C43_reversed",
    "C43_reversed_rev",
    "C43_short_refuted",
    "C43_empty_refuted"
   ],
   "note": "Abstract points; the index loops are modelled with out-of-range access as undefined. Also: join then split for connected segments, and numbering of line2measurements. Counterexamples for single-point and empty lines."
  },
  {
   "property": "C44",
   "status": "proved",
   "theorems": [
    "C44_transparent",
    "C44_hit",
    "C44_threads",
    "C44_switch",
    "C44_two_systems_refuted"
   ],
   "note": "All histories of enabling, disabling, resetting and asking by any number of threads (each call atomic; the flags are only read by the calls). Hypothesis: distance and azimuth depend only on the first two coordinates up to the comparison used by the key; without it (two coordinate systems) a counterexample is proved."
  },
  {
   "property": "C45",
   "status": "proved",
   "theorems": [
    "C45_terminates",
    "C45_circle_throws",
    "C45_start_positive",
    "C45_circle",
    "C45_none",
    "C45_combined",
    "C45_combined_refuted",
    "C45_zero_radius_refuted"
   ],
   "note": "Rational radii; the spatial index is a parameter with its contract. Termination for all modes; exact result in CIRCLE mode; counterexamples: radius 0 never ends, COMBINED mode never finds more by enlarging. A radius of zero or less is refused by buffer_box (CIRCLE mode only)."
  },
  {
   "property": "C46",
   "status": "proved",
   "theorems": [
    "C46_index_map_aligned",
    "C46_index_stable",
    "C46_by_value_refuted"
   ],
   "note": "for all import histories and allocation answers; the by-value add_edge overload stores a moved-from edge on retry (refuted)"
  },
  {
   "property": "C47",
   "status": "proved",
   "theorems": [
    "C47_cut",
    "C47_rest",
    "C47_distances",
    "C47_points",
    "C47_split",
    "C47_nearest",
    "C47_equal_neighbours",
    "C47_behind_end_refuted",
    "C47_equal_neighbours_refuted",
    "C47_split_refuted"
   ],
   "note": "Points and lengths are abstract; lengths are totally ordered and a segment between different points makes a length strictly larger (no NaN, no absorption). line_interpolate and closest_points are oracles. Only the points of the results are modelled; attributes: C22, C23."
  },
  {
   "property": "C48",
   "status": "proved",
   "theorems": [
    "C48_connected",
    "C48_length",
    "C48_merge",
    "C48_merge_connect",
    "C48_merge_except",
    "C48_merge_attached",
    "C48_line",
    "C48_line_attached",
    "C48_multi_line",
    "C48_join",
    "C48_trim",
    "C48_return_line",
    "C48_attaches",
    "C48_sub_lines",
    "C48_sub_route",
    "C48_sub_route_refuted",
    "C48_trim_empty_refuted"
   ],
   "note": "Route model (route.hpp): length, merging with and without connecting, lines and multi-lines of a route, joining, finding and trimming the return line. Points are compared by coordinates, lengths are an arbitrary monoid (addition taken as associative, floating point rounding is not modelled). Routes and parts that stand still are left out by merge, therefore ways are compared without repeating neighbours. Refuted: sub_route strictly inside one line always raises; with an empty line at the joint trim_merge raises for routes reported as attached. Ownership of the lines is not part of this model."
  },
  {
   "property": "C49",
   "status": "proved",
   "theorems": [
    "C49_states",
    "C49_finite",
    "C49_bellman",
    "C49_greedy",
    "C49_near_best",
    "C49_ends_discounted",
    "C49_ends",
    "C49_cancel_refuted",
    "C49_loop_refuted",
    "C49_free_loop_refuted"
   ],
   "note": "Model Value.v: state search, in-place sweeps, stopping by the sum, extraction of the policy; exact rational arithmetic, environment given by its actions and step results (their independence of the history is C41), time limit left out. Proved: states found are exactly the reachable ones and all vector accesses are in range, Bellman residual at most discount times threshold on every state, the policy is greedy for these values, its return is within threshold per step of every other walk, and termination for discount below 1 (sweeps) and for environments without way back (everything). Nonpositive rewards are assumed, as single.hpp gives them. Refuted without that: rewards of both signs cancel in the sum; loops with cost and no discount never end; free loops keep the extraction from ending."
  },
  {
   "property": "C50",
   "status": "proved",
   "theorems": [
    "C50_fitting",
    "C50_exact",
    "C50_nearest",
    "C50_ids",
    "C50_whole_edges",
    "C50_parts",
    "C50_part_refuted",
    "C50_parts_refuted"
   ],
   "note": "edge ids via fitting_edge for arbitrary query results; whole-edge routes exact; counterexamples for partial edges and parts"
  },
  {
   "property": "C51",
   "status": "proved",
   "theorems": [
    "C51_merge_edge_tags"
   ],
   "note": ""
  },
  {
   "property": "C52",
   "status": "proved",
   "theorems": [
    "C52_values",
    "C52_points",
    "C52_eager",
    "C52_eager_exists",
    "C52_lazy",
    "C52_joined",
    "C52_merge_refuted",
    "C52_assign_refuted",
    "C52_single_point_refuted",
    "C52_empty_part_refuted"
   ],
   "note": ""
  },
  {
   "property": "C53",
   "status": "proved",
   "theorems": [
    "C53_between",
    "C53_detached",
    "C53_same_edge",
    "C53_edge_start_refuted"
   ],
   "note": "substring and shortest route as oracles with contracts (C47, C09-C13 prove them separately)"
  },
  {
   "property": "C54",
   "status": "proved",
   "theorems": [
    "C54_connected",
    "C54_skip",
    "C54_candidates",
    "C54_policy",
    "C54_double_skip_refuted",
    "C54_join_gap_refuted"
   ],
   "note": "routes between entries as oracle; C54_candidates composes it with C53"
  },
  {
   "property": "C55",
   "status": "proved",
   "theorems": [
    "C55_copy",
    "C55_merge",
    "C55_join",
    "C55_sub_route",
    "C55_sub_route_range",
    "C55_sub_route_positions",
    "C55_trim_merge",
    "C55_sub_route_refuted",
    "C55_candidate_route_refuted",
    "C55_construct"
   ],
   "note": "RouteRefs.v: lines live in heap cells, reading a released cell is UB. Copy, merge, join, sub_route and trim_merge refine Route.v. Two refuted theorems record the dangling references."
  },
  {
   "property": "C56",
   "status": "proved",
   "theorems": [
    "C56_additions",
    "C56_distance_unused",
    "C56_not_farther_refuted"
   ],
   "note": "Distances are rationals, never NaN."
  },
  {
   "property": "C57",
   "status": "proved",
   "theorems": [
    "C57_snap",
    "C57_candidate",
    "C57_no_length",
    "C57_all",
    "C57_switch",
    "C57_times",
    "C57_times_refuted",
    "C57_clock_refuted"
   ],
   "note": "Closest point, substring, length, nearest segment of the index and the clock are oracles; numbers are rationals. Contracts: the distance of a point to itself is 0, an empty line has no length. Refuted parts: C57_times_refuted, C57_clock_refuted."
  },
  {
   "property": "C58",
   "status": "proved",
   "theorems": [
    "C58_result",
    "C58_off",
    "C58_siblings",
    "C58_nearby",
    "C58_nodes",
    "C58_direction_refuted"
   ],
   "note": "The index query is an oracle that returns entries of the index, among them all within the distance; the time limit is left out. Contracts: equality of points is reflexive, symmetric and compatible with distances. Refuted part: C58_direction_refuted."
  },
  {
   "property": "C59",
   "status": "proved",
   "theorems": [
    "C59_azimuth",
    "C59_directions",
    "C59_joined",
    "C59_single_point_refuted",
    "C59_empty_line_refuted"
   ],
   "note": "Attributes of a single line are those of C21/C22. C59_directions excludes single-point lines after the first (C59_single_point_refuted shows why). C59_joined assumes exact addition of angles."
  },
  {
   "property": "C60",
   "status": "proved",
   "theorems": [
    "C60_layers",
    "C60_best",
    "C60_best_refuted",
    "C60_no_action_refuted"
   ],
   "note": "Exact arithmetic; abort (time limit) left out; order of the states proved for layered environments (C60_layers)."
  },
  {
   "property": "C61",
   "status": "proved",
   "theorems": [
    "C61_update",
    "C61_extract",
    "C61_runs",
    "C61_patience",
    "C61_settled",
    "C61_best_refuted",
    "C61_update_refuted",
    "C61_end_refuted",
    "C61_episodes_refuted"
   ],
   "note": "Random numbers and the time limit are oracles; exact arithmetic."
  },
  {
   "property": "C62",
   "status": "proved",
   "theorems": [
    "C62_observation",
    "C62_nearer",
    "C62_length",
    "C62_angles",
    "C62_observation_score",
    "C62_ends",
    "C62_transition",
    "C62_exact",
    "C62_parts",
    "C62_stay",
    "C62_policy",
    "C62_same_difference_refuted",
    "C62_gap_refuted"
   ],
   "note": "Model HmmScore.v over rational numbers, log(pow(p, f)) a parameter with a contract; decoder from Viterbi.v on option Q. Refuted: equal differences in length are not scored equally; a point without candidates in the middle empties the policy."
  },
  {
   "property": "C63",
   "status": "proved",
   "theorems": [
    "C63_fail",
    "C63_reward",
    "C63_skip",
    "C63_parts",
    "C63_stay",
    "C63_previous",
    "C63_first",
    "C63_verdict",
    "C63_verdict_short",
    "C63_longer",
    "C63_shorter_refuted",
    "C63_invalid_kept_refuted"
   ],
   "note": "Model MdpReward.v instantiates the oracles first_reward and judge of Env.v over rational numbers. Refuted: a shorter route may cost less the shorter it is (C63_shorter_refuted); without skip_errors an edge without a valid route is taken like any other (C63_invalid_kept_refuted)."
  },
  {
   "property": "C64",
   "status": "proved",
   "theorems": [
    "C64_clean_up",
    "C64_interrupted",
    "C64_order_refuted",
    "C64_simple_refuted"
   ],
   "note": "C64_order_refuted: unconnected parts are removed before duplicate nodes are gathered, so a part connected only by nodes at one position is lost. C64_simple_refuted: after all passes roads may remain that could be joined. The duplicate passes are covered for the reading of released memory yielding the old value (freed = false); otherwise C18_released and C18_removed_edge apply."
  },
  {
   "property": "C65",
   "status": "proved",
   "theorems": [
    "C65_learn",
    "C65_policy",
    "C65_match",
    "C65_reachable_refuted"
   ],
   "note": ""
  },
  {
   "property": "C66",
   "status": "proved",
   "theorems": [
    "C66_runs",
    "C66_route",
    "C66_match",
    "C66_gap_refuted"
   ],
   "note": ""
  },
  {
   "property": "C67",
   "status": "proved",
   "theorems": [
    "C67_match",
    "C67_break_refuted"
   ],
   "note": ""
  },
  {
   "property": "C68",
   "status": "proved",
   "theorems": [
    "C68_parts",
    "C68_limit",
    "C68_route",
    "C68_complete_refuted"
   ],
   "note": ""
  },
  {
   "property": "C69",
   "status": "proved",
   "theorems": [
    "C69_file",
    "C69_round_trip",
    "C69_opposite_oneways_refuted",
    "C69_lonely_vertex_refuted",
    "C69_edge_count_refuted",
    "C69_crossing_refuted"
   ],
   "note": ""
  },
  {
   "property": "C70",
   "status": "proved",
   "theorems": [
    "C70_arc_node",
    "C70_melbourne",
    "C70_giscup",
    "C70_seattle",
    "C70_seattle_ends",
    "C70_arc_node_ids_refuted",
    "C70_melbourne_sets_refuted",
    "C70_giscup_reprojection_refuted",
    "C70_seattle_reprojection_refuted",
    "C70_seattle_empty_refuted"
   ],
   "note": ""
  },
  {
   "property": "C71",
   "status": "proved",
   "theorems": [
    "C71_gpx",
    "C71_gpx_untimed",
    "C71_gpx_in_order",
    "C71_ground_truth",
    "C71_ground_truth_rejects",
    "C71_ground_truth_path",
    "C71_input",
    "C71_gpx_ids_refuted",
    "C71_gpx_missing_time_refuted",
    "C71_gpx_same_second_refuted",
    "C71_ground_truth_gap_refuted",
    "C71_ground_truth_empty_refuted"
   ],
   "note": ""
  },
  {
   "property": "C72",
   "status": "proved",
   "theorems": [
    "C72_match_columns",
    "C72_match",
    "C72_compare_columns",
    "C72_compare",
    "C72_track",
    "C72_track_late",
    "C72_candidates",
    "C72_unknown_column_refuted",
    "C72_blank_column_refuted",
    "C72_repeated_column_refuted"
   ],
   "note": ""
  },
  {
   "property": "C73",
   "status": "proved",
   "theorems": [
    "C73_build",
    "C73_query",
    "C73_nearest",
    "C73_point_in_nodes",
    "C73_point_in_edges",
    "C73_find",
    "C73_point_in_edges_refuted",
    "C73_nearest_fewer_refuted",
    "C73_build_twice_refuted"
   ],
   "note": ""
  },
  {
   "property": "C74",
   "status": "proved",
   "theorems": [
    "C74_round_trip",
    "C74_truncated",
    "C74_wrong_kind",
    "C74_missing",
    "C74_unread",
    "C74_indices",
    "C74_finalize",
    "C74_unwritable_refuted",
    "C74_kind_refuted",
    "C74_unreadable_refuted"
   ],
   "note": ""
  },
  {
   "property": "C75",
   "status": "proved",
   "theorems": [
    "C75_compares",
    "C75_weighted",
    "C75_weighted_error_mean",
    "C75_weighted_correct_bound",
    "C75_order",
    "C75_silent",
    "C75_console",
    "C75_matches",
    "C75_tracks",
    "C75_console_texts",
    "C75_one",
    "C75_weighted_correct_refuted",
    "C75_one_refuted",
    "C75_console_refuted"
   ],
   "note": ""
  },
  {
   "property": "C76",
   "status": "proved",
   "theorems": [
    "C76_create",
    "C76_create_fails",
    "C76_open",
    "C76_missing",
    "C76_moved",
    "C76_drop_refused",
    "C76_moved_unusable",
    "C76_life",
    "C76_close",
    "C76_round_trip",
    "C76_retry",
    "C76_assign_refuted",
    "C76_moved_refuted",
    "C76_shrink_refuted",
    "C76_same_path_refuted",
    "C76_read_only_refuted",
    "C76_retries_refuted",
    "C76_retry_refuted"
   ],
   "note": ""
  },
  {
   "property": "C77",
   "status": "proved",
   "theorems": [
    "C77_target",
    "C77_refused",
    "C77_tracks",
    "C77_auto",
    "C77_osm",
    "C77_files",
    "C77_files_unassigned",
    "C77_export",
    "C77_export_unassigned",
    "C77_export_same",
    "C77_accepted",
    "C77_files_refuted",
    "C77_export_refuted",
    "C77_export_wrong_refuted",
    "C77_osm_refuted",
    "C77_type_refuted",
    "C77_accepted_refuted"
   ],
   "note": ""
  },
  {
   "property": "C78",
   "status": "proved",
   "theorems": [
    "C78_help_names",
    "C78_help",
    "C78_required",
    "C78_sources",
    "C78_refused",
    "C78_kinds",
    "C78_names",
    "C78_memory",
    "C78_prepare_memory",
    "C78_extension",
    "C78_lower",
    "C78_tracks_given",
    "C78_tracks_detected",
    "C78_read_line",
    "C78_edge_ids",
    "C78_match_begins",
    "C78_match",
    "C78_prepare_begins",
    "C78_prepare",
    "C78_compare_begins",
    "C78_compare",
    "C78_compare_type",
    "C78_compare_type_refuted",
    "C78_compare_list_refuted",
    "C78_inconsistent_refuted",
    "C78_files_refuted"
   ],
   "note": "C78_help compares the model with tables copied from /repo/help.txt."
  },
  {
   "property": "C79",
   "status": "proved",
   "theorems": [
    "C79_passes",
    "C79_work",
    "C79_options",
    "C79_once",
    "C79_status",
    "C79_status_refuted",
    "C79_help_refuted"
   ],
   "note": ""
  },
  {
   "property": "C80",
   "status": "proved",
   "theorems": [
    "C80_safe",
    "C80_results",
    "C80_complete",
    "C80_ends",
    "C80_reading",
    "C80_empty",
    "C80_exception_refuted",
    "C80_lost_refuted"
   ],
   "note": "All schedules of the owning thread, dispatchers and workers; C80_exception_refuted and C80_lost_refuted record where the code falls short."
  },
  {
   "property": "C81",
   "status": "proved",
   "theorems": [
    "C81_lazy",
    "C81_raise",
    "C81_eager",
    "C81_eager_raise",
    "C81_merge",
    "C81_join",
    "C81_matching",
    "C81_connected_refuted",
    "C81_flagged_refuted",
    "C81_join_refuted"
   ],
   "note": ""
  },
  {
   "property": "C82",
   "status": "proved",
   "theorems": [
    "C82_lazy",
    "C82_eager",
    "C82_plain",
    "C82_line",
    "C82_plain_refuted"
   ],
   "note": ""
  },
  {
   "property": "C83",
   "status": "proved",
   "theorems": [
    "C83_counts",
    "C83_empty",
    "C83_total",
    "C83_shared",
    "C83_shape",
    "C83_refused",
    "C83_given_back",
    "C83_segment",
    "C83_moved",
    "C83_threads",
    "C83_alone",
    "C83_plain_refuted",
    "C83_refused_refuted",
    "C83_swap_refuted",
    "C83_many_refuted",
    "C83_command_refuted",
    "C83_assign",
    "C83_move_assign",
    "C83_reset"
   ],
   "note": ""
  },
  {
   "property": "C84",
   "status": "proved",
   "theorems": [
    "C84_box",
    "C84_box_throws",
    "C84_box_iff",
    "C84_contains",
    "C84_smallest",
    "C84_corner",
    "C84_box_is_circle_refuted",
    "C84_segment_throws",
    "C84_segment",
    "C84_segment_wide_refuted",
    "C84_meets",
    "C84_merge",
    "C84_search",
    "C84_nearby",
    "C84_compare",
    "C84_points",
    "C84_round",
    "C84_points_overflow_refuted",
    "C84_undefined"
   ],
   "note": "Cartesian coordinates in rational numbers; the cosines and sines of boost's point_circle are an oracle of which the four quarters must be exact; the r-tree is an oracle that finds the segments meeting the box. C84_merge, C84_search, C84_nearby and C84_compare replace the box oracles of C38, C45, C58 and C24."
  },
  {
   "property": "C85",
   "status": "proved",
   "theorems": [
    "C85_trichotomy",
    "C85_irreflexive",
    "C85_equal",
    "C85_transitive",
    "C85_operators",
    "C85_lexicographic",
    "C85_hash",
    "C85_equals_points",
    "C85_set_insert",
    "C85_points_set",
    "C85_no_equal",
    "C85_canonical",
    "C85_table",
    "C85_as_set",
    "C85_nan_refuted",
    "C85_nan_containers_refuted",
    "C85_nan_behind",
    "C85_four_dimensions_refuted"
   ],
   "note": "Coordinates are an abstract type with the two comparisons; contract: an order on the numbers, equality respected by the hash. NaN, the two zeroes and integers are the instances. Containers are modelled by what they ask of comparison and hash. C85_as_set gives the contract that C24 and C25 assume of the set."
  },
  {
   "property": "C86",
   "status": "proved",
   "theorems": [
    "C86_line",
    "C86_segments",
    "C86_calls",
    "C86_turns",
    "C86_bounds",
    "C86_total",
    "C86_reverse",
    "C86_length",
    "C86_length_refuted",
    "C86_azimuth_line",
    "C86_disconnected_refuted",
    "C86_reverse_refuted",
    "C86_azimuths_count_refuted"
   ],
   "note": "Exact rational numbers for the totals, any rounding for the rest. The functions over whole lines have no callers in the program itself (rich lines compute theirs in their own way, C21 to C23), length(geometry) neither. Azimuths and unit distances are oracles. Reversal needs lines without repeated points (C86_reverse_refuted)."
  },
  {
   "property": "C87",
   "status": "proved",
   "theorems": [
    "C87_consistent",
    "C87_a_star",
    "C87_plane",
    "C87_date_line_refuted",
    "C87_metric",
    "C87_euclid"
   ],
   "note": "Exact addition; C10 needs it too. C87_metric and C87_euclid use the real numbers of the standard library and its three axioms (listed in DESIGN.md); the others are closed. The counterexample is on the equator, where the distance on the sphere is linear in the longitude."
  },
  {
   "property": "C88",
   "status": "proved",
   "theorems": [
    "C88_at",
    "C88_first_from_back_refuted",
    "C88_defined",
    "C88_walk",
    "C88_make",
    "C88_ends",
    "C88_emptied",
    "C88_shrunk_refuted",
    "C88_sub_at",
    "C88_sub_at_outside",
    "C88_shared_out",
    "C88_neighbour_refuted"
   ],
   "note": "Containers with random access; for others the subview does not compile. The functions at, front and back have no callers in the program."
  },
  {
   "property": "C89",
   "status": "proved",
   "theorems": [
    "C89_passes",
    "C89_files",
    "C89_steps",
    "C89_between",
    "C89_missing",
    "C89_broken",
    "C89_failure",
    "C89_reader",
    "C89_opens_each",
    "C89_writes",
    "C89_finds",
    "C89_compare",
    "C89_same_name_refuted",
    "C89_dot_refuted",
    "C89_failure_refuted",
    "C89_console_refuted",
    "C89_compare_refuted"
   ],
   "note": "C89_broken: what a preparation that threw has left behind, file by file. C89_between: a memory mapped storage is created once, and all steps that need it lie between that and its closing."
  },
  {
   "property": "C90",
   "status": "proved",
   "theorems": [
    "C90_value",
    "C90_policy",
    "C90_in_time",
    "C90_in_time_policy",
    "C90_value_ends",
    "C90_policy_ends",
    "C90_complete",
    "C90_value_learner",
    "C90_policy_learner",
    "C90_given_up",
    "C90_set",
    "C90_track_value",
    "C90_track_policy",
    "C90_alarm_refuted",
    "C90_walk_refuted",
    "C90_prepared_refuted"
   ],
   "note": "Deadline.v. The clock is any sequence of readings. C90_value and C90_policy are simulations of the learners without a limit; C90_value_ends and C90_policy_ends bound the work by the looks until the time is up; C90_complete and its instances C90_track_value and C90_track_policy are about whole tracks. C90_alarm_refuted: with an alarm that does not stay, value iteration reads outside of its vector. C90_walk_refuted: the walk at the end is not limited. C90_prepared_refuted: the line reported as prepared is not prepared if the time was up."
  },
  {
   "property": "C91",
   "status": "proved",
   "theorems": [
    "C91_search",
    "C91_set",
    "C91_viterbi",
    "C91_unfinished",
    "C91_safe",
    "C91_track_hmm",
    "C91_track_value",
    "C91_track_policy",
    "C91_alarm_refuted",
    "C91_given_up_refuted"
   ],
   "note": "C91_alarm_refuted: with an alarm that goes off again the partial tables would be read out of bounds. C91_given_up_refuted: a search given up cannot be told from one without results."
  },
  {
   "property": "C92",
   "status": "proved",
   "theorems": [
    "C92_match",
    "C92_match_corrected",
    "C92_match_all",
    "C92_match_untouched",
    "C92_match_corrected_untouched",
    "C92_compare",
    "C92_csv_match",
    "C92_csv_compare",
    "C92_csv_all",
    "C92_ids",
    "C92_missing",
    "C92_no_time_columns",
    "C92_cell",
    "C92_digits",
    "C92_time",
    "C92_before_1970",
    "C92_row",
    "C92_upper",
    "C92_rows",
    "C92_compare_time_ignored",
    "C92_compare_time",
    "C92_selected",
    "C92_same_tracks",
    "C92_compare_time_refuted",
    "C92_ids_refuted",
    "C92_unreadable_refuted",
    "C92_absent_time_refuted"
   ],
   "note": "C92_match(_corrected, _all, _untouched), C92_compare, C92_csv_match/compare/all: settings; C92_cell, C92_digits, C92_ids, C92_missing, C92_time, C92_before_1970, C92_no_time_columns, C92_row, C92_upper, C92_rows: text of rows; C92_compare_time_ignored, C92_compare_time, C92_same_tracks: comparing against matching. Four refutations with witnesses."
  },
  {
   "property": "C93",
   "status": "proved",
   "theorems": [
    "C93_life",
    "C93_new",
    "C93_no_place",
    "C93_drop",
    "C93_drop_refused",
    "C93_finalize",
    "C93_grow_finalized",
    "C93_put_finalized",
    "C93_reverse_gone",
    "C93_same",
    "C93_new_memory",
    "C93_new_values",
    "C93_archive",
    "C93_archive_refuted",
    "C93_index_refuted",
    "C93_index",
    "C93_index_grow",
    "C93_index_twice",
    "C93_index_drop_grow_refuted",
    "C93_index_lost",
    "C93_index_once"
   ],
   "note": "C93_life is the simulation; C93_new and C93_drop give its starting states, C93_finalize and C93_reverse_gone what finalizing leaves. C93_grow_finalized and C93_put_finalized show that a finalized storage cannot grow. C93_archive_refuted, C93_index_refuted and C93_index_drop_grow_refuted have witnesses for all contents. Writing texts with embedded NUL characters is not modelled."
  },
  {
   "property": "C94",
   "status": "proved",
   "theorems": [
    "C94_str",
    "C94_cand_str",
    "C94_tags",
    "C94_tags_read",
    "C94_tags_quotes_refuted",
    "C94_tags_unknown_refuted",
    "C94_nodes",
    "C94_edges",
    "C94_nodes_distinct",
    "C94_empty_refuted",
    "C94_candidate",
    "C94_candidate_outside",
    "C94_candidate_none",
    "C94_candidate_lines",
    "C94_measure_order",
    "C94_measure_equal_refuted",
    "C94_measure_row",
    "C94_track_row_short",
    "C94_multi_row",
    "C94_create",
    "C94_create_odd",
    "C94_get_track",
    "C94_sizes",
    "C94_sort_order"
   ],
   "note": "Texts of numbers and geometries are oracles; the csv writer and its quoting are not modelled. Refutations: files of an empty network have no header; quotes in tags are not escaped; unknown tags leave empty places; the header of a track has a name too many; equal measurements may differ in their points; create_track with an odd number of coordinates."
  },
  {
   "property": "C95",
   "status": "proved",
   "theorems": [
    "C95_compress",
    "C95_compress_retries",
    "C95_compress_total",
    "C95_tags_growth_refuted"
   ],
   "note": "Over the models of C05 and C27/C28. The tags of the imported network are given by number, all known to it. Refutation: growth of the tag file while copying leaves a dangling reference."
  },
  {
   "property": "C96",
   "status": "proved",
   "theorems": [
    "C96_import",
    "C96_import_total",
    "C96_compressed",
    "C96_lost_refuted",
    "C96_growth_refuted",
    "C96_two_ways_refuted"
   ],
   "note": "Allocations of the node table and of the graph do not fail in this model (C30, C46 have them); the exception of a tag number the handler does not know is proved not to happen."
  },
  {
   "property": "C97",
   "status": "proved",
   "theorems": [
    "C97_from",
    "C97_memory",
    "C97_kept",
    "C97_alone",
    "C97_other_roads_refuted",
    "C97_number_refuted"
   ],
   "note": "C97_from (all tags of the ways along, only tags of ways led to), C97_memory (with failed allocations and resumed passes), C97_kept (nothing is taken away), C97_alone (exactly the same tags), C97_other_roads_refuted, C97_number_refuted; no new model: NetImport.v and Tags.v."
  },
  {
   "property": "C98",
   "status": "proved",
   "theorems": [
    "C98_exact",
    "C98_enough",
    "C98_in_memory",
    "C98_index_room",
    "C98_again_refuted",
    "C98_full_disk_refuted",
    "C98_add_point",
    "C98_add_segment",
    "C98_index_size"
   ],
   "note": "Proved for the vectors with their capacities and an arbitrary answer of the allocator to each request; C98_enough, C98_in_memory and C98_index_room state the contract of the allocator they need. Two refutations name what the code does not guarantee."
  },
  {
   "property": "C99",
   "status": "proved",
   "theorems": [
    "C99_table",
    "C99_agree",
    "C99_equal",
    "C99_points",
    "C99_edges",
    "C99_bits_refuted",
    "C99_nan_refuted"
   ],
   "note": "Proved for two dimensional points with arbitrary coordinate equality and mixing; the tables of the library are modelled by buckets that may change in number before any insertion. Two refutations: a hash of bits, and keys that are not numbers."
  },
  {
   "property": "C100",
   "status": "proved",
   "theorems": [
    "C100_digits",
    "C100_distinct_refuted",
    "C100_read_back",
    "C100_point",
    "C100_again",
    "C100_file",
    "C100_parts_refuted",
    "C100_ties",
    "C100_upper",
    "C100_total",
    "C100_kinds"
   ],
   "note": "Coordinates are rationals, infinite values and NaN are left out. Writer and reader of the text (Boost.Geometry, outside of the project) are modelled by what they write and accept; the layout of a single number is an oracle with the contract spells, met by text_e. C100_distinct_refuted and C100_parts_refuted give the limits of the claim: two coordinates may be written alike, and empty parts are lost."
  },
  {
   "property": "C101",
   "status": "proved",
   "theorems": [
    "C101_edges",
    "C101_hmm",
    "C101_single",
    "C101_sums",
    "C101_single_refuted"
   ],
   "note": "The tables are those of Limit.v and Env.v; sizes are natural numbers, so products beyond 64 bits are left out. C101_single_refuted: four combinations are printed although one result was worked out and no offered action is left."
  },
  {
   "property": "C102",
   "status": "proved",
   "theorems": [
    "C102_moves",
    "C102_moves_refuted"
   ],
   "note": "The sorting is an oracle with the contract of C30. C102_moves_refuted: nodes 2 and 1 are stored, the table is moved, node 2 is not found, whether a helper is constructed or assigned."
  },
  {
   "property": "C103",
   "status": "proved",
   "theorems": [
    "C103_references",
    "C103_unreserved_refuted"
   ],
   "note": "set, the learner and result are functions of the environment here (C41-C68 describe them); a vector has a capacity and an allocation number. C103_unreserved_refuted is about the loop without the reservation."
  },
  {
   "property": "C104",
   "status": "proved",
   "theorems": [
    "C104_tolerance",
    "C104_positive",
    "C104_zero",
    "C104_beside",
    "C104_plain",
    "C104_off",
    "C104_boxed",
    "C104_fewer_refuted"
   ],
   "note": "The conversion of distances to doubles is not modelled; distances are rational. C104_fewer_refuted shows that a larger tolerance may leave more measurements. C104_boxed replaces the contract of the box by the boxes of C84."
  }
 ]
}