{"id": "C01", "title": "Incidence lists are exact after any build history", "statement": "After any sequence of add_vertex/add_edge calls on an in-memory graph, the out-edges reported for a vertex are exactly the edges created with that vertex as source (for an undirected graph: every edge touching it, a self loop once), in creation order and without repetition; in a bidirectional graph the in-edges reported are exactly the edges created with it as target; and out_degree/in_degree equal the lengths of those lists.", "quantifier": "all interleavings of add_vertex and add_edge on all three graph kinds, all vertices of the resulting graph", "why_tests_cant": "A test fixes one construction order and a handful of vertices; the claim is an invariant over unboundedly many construction histories including parallel edges and self loops.", "anchors": ["src/library/include/graph/adjacency_list.hpp: add_vertex, add_edge, _add_edge, out_edges_view, in_edges_view, out_degree, in_degree"]}
{"id": "C02", "title": "A failing edge insertion leaves the graph unchanged", "statement": "If memory runs out at any point inside add_edge (storing the edge, appending to the source's list, appending to the target's list) the call raises and the observable graph (vertices, edges, every incidence list) is exactly what it was before the call; if it does not run out the edge is added.", "quantifier": "all graphs reachable by construction, all source/target pairs, every crash point inside the insertion", "why_tests_cant": "Allocation failure at an arbitrary inner point cannot be scheduled by ordinary unit tests, and the three append targets differ per graph kind.", "anchors": ["src/library/include/graph/adjacency_list.hpp: _add_edge, try_add"]}
{"id": "C03", "title": "Removing an edge removes exactly that edge", "statement": "remove_edge(e) deletes e from the edge set and from every incidence list, leaves every other edge and its position relative to the others untouched, and keeps the incidence lists exact (no list mentions a deleted edge).", "quantifier": "all graphs reachable by any history of add/remove operations, all edges", "why_tests_cant": "The claim speaks about all remaining lists of an arbitrary graph after an arbitrary history, not about the few lists a test inspects.", "anchors": ["src/library/include/graph/adjacency_list.hpp: remove_edge(edge), remove_edge(source,target), out_remove_if, in_remove_if"]}
{"id": "C04", "title": "Removing a vertex leaves no dangling edge", "statement": "After clear_vertex(v) no edge has v as source or target, all other edges survive, and remove_vertex(v) then succeeds; no call of remove_vertex ever leaves an edge whose endpoint does not exist.", "quantifier": "all reachable graphs and vertices, for directed, bidirectional and undirected graphs", "why_tests_cant": "Dangling descriptors are silent until dereferenced; tests only look at the vertices they touched.", "anchors": ["src/library/include/graph/adjacency_list.hpp: clear_vertex, remove_vertex"]}
{"id": "C05", "title": "Compressed graph equals the graph it was built from", "statement": "Converting an adjacency-list graph to the compressed (CSR) graph keeps the vertices in order, and for every vertex the out-edges of the compressed graph are its out-edges in the same order with the same data and the same (renumbered) targets; the per-vertex ranges are contiguous, disjoint and together cover all edges; source(e)/target(e) agree with the original.", "quantifier": "all adjacency-list graphs, all vertices and edges", "why_tests_cant": "The offset arithmetic must be right for every degree sequence including empty vertices at the front, middle and end.", "anchors": ["src/library/include/graph/compressed_sparse_row.hpp: from_adjacency_list, _add_vertex, _add_edge, out_edges_view, _out_edges_start_end, source, target"]}
{"id": "C06", "title": "Copying a graph is an isomorphism", "statement": "copy_from produces a graph with the same vertices in the same order and the same edges in the same order with equal data and corresponding endpoints, and the copy satisfies the exactness of incidence lists.", "quantifier": "all source graphs reachable by add/remove histories", "why_tests_cant": "Index remapping bugs appear only for graphs with holes or particular list orders.", "anchors": ["src/library/include/graph/adjacency_list.hpp: copy_from, reindex"]}
{"id": "C07", "title": "Breadth-first traversal visits exactly the reachable vertices", "statement": "breadth_first_search from v discovers every vertex reachable from v along out-edges exactly once, discovers nothing else, and discovers vertices in non-decreasing hop distance.", "quantifier": "all graphs, all start vertices", "why_tests_cant": "Reachability over all graph shapes (cycles, parallel edges, self loops) is an unbounded statement.", "anchors": ["src/library/include/graph/algorithm/breadth_first_search.hpp: breadth_first_search"]}
{"id": "C08", "title": "Depth-first traversal visits exactly the reachable vertices", "statement": "depth_first_search from v discovers every vertex reachable from v exactly once, discovers nothing else, and terminates.", "quantifier": "all graphs, all start vertices", "why_tests_cant": "Same as for breadth-first traversal: unbounded graph shapes.", "anchors": ["src/library/include/graph/algorithm/depth_first_search.hpp: depth_first_search"]}
{"id": "C09", "title": "Dijkstra returns shortest distances and valid predecessor chains", "statement": "With non-negative edge lengths, after dijkstra_shortest_path the recorded distance of every vertex is the minimum length over all paths from the start, vertices without a recorded distance are unreachable, and following recorded predecessors from any reached vertex yields a path of exactly that length.", "quantifier": "all graphs with non-negative lengths, all starts, all end vertices, any tie-breaking of equal distances", "why_tests_cant": "Optimality quantifies over all paths of all graphs; a test checks a few hand-computed distances.", "anchors": ["src/library/include/graph/algorithm/dijkstra_shortest_path.hpp: dijkstra_shortest_path"]}
{"id": "C10", "title": "A* with a consistent estimate is exact", "statement": "a_star_shortest_path with a consistent (monotone) estimate finds, for a reachable goal, a path of minimum length; with an estimate that is merely a lower bound this fails because closed vertices are not reopened, and for an unreachable goal a vertex list that is no path is returned (counterexamples).", "quantifier": "all graphs, all starts and goals, all consistent heuristics; a counterexample graph for inconsistent ones", "why_tests_cant": "Optimality and the exact heuristic precondition are universally quantified.", "anchors": ["src/library/include/graph/algorithm/a_star_shortest_path.hpp: a_star_shortest_path"]}
{"id": "C11", "title": "Length-bounded search is sound, and when it is complete", "statement": "A search bounded by a maximum distance only reports goals with a real path whose length is the reported distance and within the bound. It finds a goal, at a distance no longer than a given path to it, whenever no edge into a vertex of that path overshoots the bound; without that proviso goals within the bound can be missed or reported with a longer distance (counterexamples).", "quantifier": "all graphs, bounds, start and goal sets", "why_tests_cant": "Whether the bound interacts with vertex colouring correctly depends on edge order and lengths of an arbitrary graph.", "anchors": ["src/library/include/geometry/network/network.hpp: dijkstra_shortest_paths, base_max_distance_visitor, goals_visitor", "src/library/include/graph/algorithm/dijkstra_shortest_path.hpp"]}
{"id": "C12", "title": "Extracted routes are connected and as long as the reported distance", "statement": "extract_route turns a predecessor chain into a list of edges starting at the start vertex, ending at the goal, consecutive edges sharing a vertex, choosing among parallel edges a shortest one, so the route length equals the search distance.", "quantifier": "all graphs (with parallel edges), all predecessor maps that describe a path, all starts and goals", "why_tests_cant": "Parallel edges and arbitrary chain lengths make the input space unbounded.", "anchors": ["src/library/include/geometry/network/network.hpp: extract_route, fetch_route"]}
{"id": "C13", "title": "Route queries do not depend on earlier queries", "statement": "Asking the router for the route between two candidates without a distance limit returns the same answer irrespective of which routes, with whatever goal sets, were asked before with the same router. With limits, or after an A* query for an unreachable goal, it does not (counterexamples).", "quantifier": "all histories of route queries with arbitrary limits", "why_tests_cant": "History dependence needs quantification over query sequences.", "anchors": ["src/library/include/matching/algorithm/route.hpp: route, shortest_paths, shortest_path, _route_cache"]}
{"id": "C14", "title": "Viterbi returns a most likely state sequence", "statement": "For a model with per-step transition and observation scores (log scale, possibly minus infinity) the returned policy names one candidate per step, beginning with the first step that has candidates, and its total score is at least that of every other such sequence of candidates; an empty policy is only returned if no such sequence has a score above minus infinity. (A later step without candidates therefore empties the policy.)", "quantifier": "all trellises (any number of steps and of candidates per step), all score assignments", "why_tests_cant": "Optimality over exponentially many sequences for all trellises is beyond examples.", "anchors": ["src/library/include/learning/algorithms/viterbi.hpp: viterbi::operator()"]}
{"id": "C15", "title": "Viterbi backtrace is well formed", "statement": "The returned policy is either empty or contains exactly one (time, candidate) pair per step from the first step with candidates to the last step, in step order, each candidate index being valid for its step; no array is read out of bounds.", "quantifier": "all trellises including steps without candidates", "why_tests_cant": "Index safety for all ragged trellises is universally quantified.", "anchors": ["src/library/include/learning/algorithms/viterbi.hpp: viterbi::operator()"]}
{"id": "C16", "title": "Network simplification preserves lengths and junctions", "statement": "Merging chains of degree-two nodes keeps every remaining node and its number of roads, makes every new road run along original roads in order with every original road in exactly one, joins only where at most two directions meet, keeps all tags, leaves a consistent graph, and leaves no node on a single road unless all its roads lead to one neighbour. (Counterexamples: one pass is not idempotent; a joined road whose insertion runs out of memory is lost when the pass is retried.)", "quantifier": "all road graphs and all merge orders the procedure may take", "why_tests_cant": "Chains of arbitrary length, cycles and one-way/two-way mixtures are not enumerable.", "anchors": ["src/library/include/geometry/network/network_import.hpp: simplify, _merge, _is_mergeable, _populate_merges", "src/library/include/geometry/network/edge.hpp: merge"]}
{"id": "C17", "title": "Only the largest component is kept", "statement": "remove_unconnected_components keeps the first largest of the pieces found by searching from each vertex not reached before, with all edges inside it; where every way has a way back this is a largest connected component and no component has more vertices. (Counterexamples: with one-way roads the kept piece may be smaller than the part reachable from one vertex and may not be connected both ways; the empty network is undefined behaviour.)", "quantifier": "all graphs", "why_tests_cant": "Component structure of arbitrary directed graphs; the discovered pieces depend on the vertex order.", "anchors": ["src/library/include/geometry/network/network_import.hpp: remove_unconnected_components"]}
{"id": "C18", "title": "Duplicate nodes are merged without losing roads", "statement": "remove_duplicate_nodes keeps every road, between nodes at the same positions, and leaves only the first node of every position at which no roads were joined; roads are joined only at positions shared by several nodes; without joining the result is the network with every node replaced by the first node at its position. remove_duplicate_edges keeps the first of equal roads. (Counterexamples: after joining, a third node at the same position is no longer connected to the others or remains as a second node; a later copy with two incoming roads, and any repeated road, make the passes read released memory.)", "quantifier": "all graphs and all coincidences of node positions", "why_tests_cant": "Groups of duplicates of arbitrary size with arbitrary in/out edges.", "anchors": ["src/library/include/geometry/network/network_import.hpp: remove_duplicate_nodes, remove_duplicate_edges"]}
{"id": "C19", "title": "Track simplification respects the tolerance", "statement": "With a tolerance that is not negative, simplifying a line ends, keeps its first and last point, only removes points, and every removed point lies within the tolerance of the segment between the two neighbouring kept points. (Counterexample: with a negative tolerance the recursion does not end.)", "quantifier": "all lines, all non-negative tolerances, any distance function", "why_tests_cant": "Recursion over lines of arbitrary length with arbitrary distance ties.", "anchors": ["src/library/include/geometry/algorithm/simplify.hpp: simplify_indices, simplify"]}
{"id": "C20", "title": "Reversal points survive track simplification", "statement": "When simplification is asked to retain reversals, every point between two segments that have a direction at which the track turns back more than the reverse tolerance allows is kept, and the segment-list implementation gives the segments of the line simplified by the index implementation. (Counterexamples: a turn over a repeated point is not recognised; with a negative tolerance the segment implementation reads an iterator that was never assigned.)", "quantifier": "all rich lines, tolerances and reverse tolerances", "why_tests_cant": "The chunking of the index ranges must be right for every pattern of reversals.", "anchors": ["src/library/include/geometry/algorithm/simplify.hpp: simplify_rich_line_indices, simplify_rich_line"]}
{"id": "C21", "title": "Merging lines concatenates them without duplicated joints", "statement": "Merging a sequence of attached lines yields the concatenation of their points with each shared joint appearing once; merging unattached lines raises; empty lines are neutral; merging is associative.", "quantifier": "all sequences of lines", "why_tests_cant": "Sequences of arbitrary length mixing empty, single-point and longer lines.", "anchors": ["src/library/include/geometry/rich_type/rich_line.hpp: merge, _merge_single, calculate_new_size, attaches"]}
{"id": "C22", "title": "Cached line attributes agree with the geometry", "statement": "Length, azimuth, directions, segment lengths and segment azimuths reported by an eager or lazy line equal the values recomputed from its points, whatever sequence of construct/merge/erase/slice/convert operations produced it. (Counterexamples: erase of the last index keeps the old azimuth; assigning a plain rich_line keeps all old attributes; assigning a lazy line to a non-empty eager line appends the segment attributes; converting a merged two-point lazy line leaves the segment azimuth uninitialized; a merge that raises leaves foreign segment attributes; direction(pos) of a lazy line always raises; multi_rich_line::azimuth with an empty first line is undefined.)", "quantifier": "all operation histories on eager rich lines", "why_tests_cant": "Staleness of caches depends on operation history.", "anchors": ["src/library/include/geometry/rich_type/eager_rich_line.hpp", "src/library/include/geometry/rich_type/rich_line_data.hpp: sub_data, _merge, _erase_and_replace_length, _erase_and_replace_azimuth, _compute"]}
{"id": "C23", "title": "Sub-lines report their own attributes", "statement": "sub_rich_line(from,to) has exactly the points from..to-1 of the line and its reported length equals the sum of its own segment lengths, for all valid arguments except (0, size-1). (Counterexample: sub_rich_line(0, size-1) reports the length and azimuth of the whole line.)", "quantifier": "all lines and all valid index ranges", "why_tests_cant": "Off-by-one errors show only for particular ranges relative to the line size.", "anchors": ["src/library/include/geometry/rich_type/eager_rich_line.hpp: sub_rich_line", "src/library/include/geometry/rich_type/rich_line_data.hpp: sub_data", "src/library/include/geometry/rich_type/rich_line.hpp: sub_line"]}
{"id": "C24", "title": "Comparing two routes accounts for every segment", "statement": "For all prepared segment lists: no segment is used twice, every ground-truth segment is reported as correct or missed and every match segment as correct or added, exactly the segments occurring in both are correct, none is both missed and added; without turns on a segment the lists are the exact intersection and differences with multiplicity; connected lines stay connected and get no new points in the preparation. (Counterexamples: going back and forth repeatedly is counted as missed or added only once; the parts of a multi-line are joined, so a gap on a straight road is not reported.)", "quantifier": "all pairs of segment lists", "why_tests_cant": "Merging, reversal detection and re-matching interact for arbitrary lists.", "anchors": ["src/library/include/geometry/algorithm/compare.hpp: _compare, _detect_reverse, _find_merge"]}
{"id": "C25", "title": "Comparison fractions are meaningful", "statement": "The reported lengths are those of the reported segments, the error fraction is the missed plus added length divided by the ground-truth length (infinite if that has none), it is 0 exactly if nothing is missed or added and then the correct fraction is 1; the correct fraction lies in [0,1] and is the correct length over the longer length; a line compared with itself has error 0 and correct 1 if its points are not nearer to each other than the adoption tolerance. (Counterexample: with nearer points identical lines may differ.)", "quantifier": "all pairs of lines", "why_tests_cant": "Edge cases (empty, zero length, over-long) over all inputs.", "anchors": ["src/library/include/geometry/algorithm/compare.hpp: _compare"]}
{"id": "C26", "title": "Every queued task is executed exactly once", "statement": "With any number of workers and under every interleaving of clients, dispatcher and workers, each task accepted by queue() is executed at most once, tasks begin in acceptance order, executing tasks never exceed the thread count and submitted unfinished ones never exceed the queue size; join returns only after stop() and after every begun task finished, and cannot deadlock once stop() was called; when join returns every accepted task was executed exactly once unless it was accepted between the dispatcher's reads of empty() and closed() (such a task can be lost).", "quantifier": "all thread schedules, task counts, queue capacities and worker counts", "why_tests_cant": "Schedules cannot be enumerated by tests.", "anchors": ["src/library/include/util/coordinator.hpp: coordinator, queue, stop, join, _start"]}
{"id": "C27", "title": "Tag ids are a faithful dictionary", "statement": "Interning tags gives equal ids exactly for equal key/value pairs, tag(id(k,v)) = (k,v), ids stay valid when further tags are interned, for strings without embedded NUL characters (with them it is false).", "quantifier": "all histories of interning calls", "why_tests_cant": "Dictionary consistency is an invariant over arbitrary histories.", "anchors": ["src/library/include/io/helper/tag_helper.hpp: id, tag"]}
{"id": "C28", "title": "Tag interning survives allocation failures", "statement": "If the storage runs out of memory at any point during interning, the dictionary is still consistent, no previously issued id changes its meaning, and the retry after growing returns a correct id.", "quantifier": "all histories and all crash points inside interning", "why_tests_cant": "Crash points inside a multi-map update cannot be enumerated by unit tests.", "anchors": ["src/library/include/io/helper/tag_helper.hpp: id", "src/library/include/io/memory_mapped/utils.hpp: retry_alloc"]}
{"id": "C29", "title": "Imported ways create exactly the drivable edges", "statement": "A kept, non-empty OSM way with nodes n0..nk creates, for each consecutive pair of known nodes, exactly one edge in each direction its filter classification permits (forward unless classified one-way and reversed, backward unless classified one-way and not reversed) carrying the way id and the two points, and nothing else; every known node on a kept way becomes a vertex exactly once. (Counterexamples: with the default filters a way tagged oneway=-1 gets both directions; an empty kept way is undefined behaviour.)", "quantifier": "all ways, node sets and one-way classifications", "why_tests_cant": "Arbitrary node sequences, repeated nodes and missing nodes.", "anchors": ["src/library/include/io/network/osm_handler.hpp: way, keep, detect_oneway", "src/library/include/io/helper/osm_handler_helper.hpp: add_node, get_node, contains_node, add_vertex, add_edge"]}
{"id": "C30", "title": "Node lookup is independent of input order", "statement": "contains_node/get_node find exactly the nodes added so far with the data of the first addition, regardless of the order in which node ids arrive.", "quantifier": "all sequences of node additions and lookups", "why_tests_cant": "Lazy sorting with a flag is history dependent.", "anchors": ["src/library/include/io/helper/osm_handler_helper.hpp: add_node, check_and_sort_nodes, contains_node, get_node", "src/library/include/io/network/osm_handler.hpp: node"]}
{"id": "C31", "title": "Filter rule strings parse as documented", "statement": "A filter string 'default|result,key=value|result,key' parses, without exception for any string, to the default and the list of rules in order; printing a rule list (keys free of '|' and '=', values free of '|') in that syntax and parsing it gives the list back, and the filter answers with the first matching rule, else the default. (Counterexample: a key containing '=' is not read back.)", "quantifier": "all rule lists whose keys and values avoid the separators", "why_tests_cant": "Round trip over all strings.", "anchors": ["src/library/include/io/network/osm_manual_importer.hpp: parse_rules, create_tags_filter"]}
{"id": "C32", "title": "CSV rows are grouped into tracks by id", "statement": "Reading rows ungrouped forwards the tracks given as lines in row order and then exactly one track per distinct selected id, containing exactly the point rows of that id ordered by time, where a row without time counts as its number among the rows of its id (so rows without times keep row order). In grouped mode the result is the same up to order whenever equal ids are contiguous. (Counterexamples: grouped reading of interleaved ids forwards an id twice; rows of equal time may be swapped; without ids, rows of different files with the same number become one track; with one track per file a line row among points splits the track in grouped mode.)", "quantifier": "all row sequences", "why_tests_cant": "Arbitrary interleavings of ids.", "anchors": ["src/library/include/io/track/csv_track_importer.hpp: process_row, finish_import", "src/library/src/io/csv_importer.cpp: read"]}
{"id": "C33", "title": "Edge lists become the longest connected paths", "statement": "If every listed id belongs to an edge (and the list does not start with the smallest 64-bit number), importing a list of edge ids yields, in order, one edge per listed id, consecutive repeats collapsed, in stretches each of which is connected and at least as long as any connected choice of edges for the ids from its start on; an unknown id makes the import throw. (Counterexamples: the message for a missing edge is unreachable; a list starting with the smallest 64-bit number loses it.)", "quantifier": "all id lists and all networks in which an id names several edges", "why_tests_cant": "The search space of edge choices is unbounded.", "anchors": ["src/library/include/io/track/edges_list_importer.hpp: _parse_dispatch, _is_connected"]}
{"id": "C34", "title": "Matches and ground truths are paired exactly once", "statement": "If matches have pairwise distinct ids and ground truths have pairwise distinct ids, then whatever order they arrive in, each id occurring on both sides is compared exactly once with its own partner, and at the end every ground truth without a match is compared to an empty match unless that is disabled; nothing else is compared. (Counterexamples: with repeated ids a match is dropped unseen, and a ground truth is compared to an empty match although a match exists.)", "quantifier": "all arrival orders of uniquely identified tracks", "why_tests_cant": "Arrival interleavings are unbounded.", "anchors": ["src/library/src/compare/comparator/comparator_forwarder_matches.cpp: pass", "src/library/src/compare/comparator/comparator_forwarder_compares.cpp: pass", "src/library/src/compare/comparator/comparator_forwarder_data.cpp: finish"]}
{"id": "C35", "title": "Turn angles are normalised differences", "statement": "angle_diff(a,b) of two azimuths in [-180,180] lies in [-180,180], is antisymmetric, and with exact arithmetic is the shortest difference congruent to a-b modulo 360. (Counterexample: for angles outside that range one correction is not enough.)", "quantifier": "all real angles", "why_tests_cant": "Continuum of inputs with boundary cases at +-180.", "anchors": ["src/library/include/geometry/common.hpp: angle_diff"]}
{"id": "C36", "title": "next_pow2 is the least power of two not below its argument", "statement": "For every 64-bit x with 1 <= x <= 2^63, next_pow2(x) is the least power of two >= x; for 0 and for x > 2^63 the result is 0.", "quantifier": "all 64-bit unsigned integers", "why_tests_cant": "2^64 inputs.", "anchors": ["src/library/include/geometry/common.hpp: next_pow2"]}
{"id": "C37", "title": "Delimiter strings are unescaped consistently", "statement": "parse_delimiter inverts escaping: escaping any list of characters (tab as \\t, space as \\s, backslash doubled) and parsing gives the list back; an unescaped text is returned unchanged.", "quantifier": "all character lists", "why_tests_cant": "All strings.", "anchors": ["src/library/src/io/importer.cpp: importer::parse_delimiter"]}
{"id": "C38", "title": "Median merge only replaces close neighbours", "statement": "median_merge replaces each run of consecutive measurements lying within the tolerance of the run's first measurement, as long as possible, by one point whose coordinates are the componentwise medians of the run, keeps a measurement lying outside of its own tolerance unchanged, and keeps the order; the result is unique, for tolerances that are all positive; the first tolerance met that is not positive ends the merge with an exception. The median of an odd number of values is the middle one; that of an even number is the mean of the two middle ones if nth_element happens to leave the upper one right behind the lower one. (Counterexample: nth_element is not required to do so, then the mean is taken with a larger value.)", "quantifier": "all tracks and tolerances", "why_tests_cant": "Arbitrary runs and spatial query results.", "anchors": ["src/library/include/geometry/algorithm/median_merge.hpp: median_merge", "src/library/include/geometry/algorithm/median.hpp: median, median_point"]}
{"id": "C39", "title": "Bounds of container views", "statement": "On a non-empty container a view's at(pos) returns the element at pos (negative positions counting from the end) or raises, and never reads outside the container; a subview inside the container reads its elements. (Counterexamples: an empty container reads out of bounds at 0; at(-size) raises although the first element is there; subview does not check its bounds.)", "quantifier": "all containers and positions", "why_tests_cant": "Boundary behaviour over all sizes and positions.", "anchors": ["src/library/include/graph/container_view.hpp: at", "src/library/include/graph/container_subview.hpp"]}
{"id": "C40", "title": "Time limits latch", "statement": "Once the time limit has been reported as reached it stays reached and the recorded time stops; before that it is reached exactly when the clock has advanced by at least the limit; a limit of zero never triggers.", "quantifier": "all clock histories and call sequences", "why_tests_cant": "Clock histories are unbounded.", "anchors": ["src/library/include/util/time_helper.hpp", "src/library/src/util/time_helper.cpp"]}
{"id": "C41", "title": "Environment steps are repeatable", "statement": "In the step-wise matching environment, repeating a (state, action) pair gives the same reward, successor and done flag as the first time, state numbers correspond one-to-one to internal states, action numbers encode/decode losslessly, an episode ends whatever actions are taken, and with the default state size no offered action is undefined. (Counterexample for the larger state size: the previous edge is looked up among the edges of the current candidate, out of range.)", "quantifier": "all histories of reset/step calls", "why_tests_cant": "Memoisation correctness is a statement about histories.", "anchors": ["src/library/include/environment/environments/single.hpp: step, actions, _internal2state, action2internal, _internal2action, _new_state, _skip_state"]}
{"id": "C42", "title": "Filtering defects keeps the sound points", "statement": "Detecting defects ends for every track and marks as duplicates exactly the points equal to their predecessor, and as turning back exactly the other points at which the track turns back with respect to the last unmarked point; removing defects keeps exactly the points whose set of defects contains the entry none, in their order. (Counterexamples: the detector erases the entry none from all sets, so that removing defects right after detecting them removes every point of every track; and both environments filter a track that was already moved away, so that duplicates stay in the track that is matched.)", "quantifier": "all tracks", "why_tests_cant": "All tracks.", "anchors": ["src/library/include/matching/algorithm/detect.hpp: detect, remove_defects", "src/library/include/matching/defect.hpp"]}
{"id": "C43", "title": "Line/segment conversions round-trip", "statement": "Splitting a line with at least two points into segments and joining them again gives the line back, and joining connected segments and splitting gives the segments back; a non-empty line reads as the reverse of another exactly when its points are the reverse sequence. (Counterexamples: a single point is lost; two empty lines do not count as reversed.)", "quantifier": "all lines", "why_tests_cant": "All point sequences.", "anchors": ["src/library/include/geometry/algorithm/convert.hpp: line2segments, segments2line", "src/library/include/geometry/algorithm/reverse.hpp: lines_are_reversed"]}
{"id": "C44", "title": "Distance caching is transparent", "statement": "With caching enabled, geometry::distance and azimuth return exactly what they return without caching, for any history of calls within one coordinate system.", "quantifier": "all call histories", "why_tests_cant": "Histories.", "anchors": ["src/library/include/geometry/algorithm/distance.hpp", "src/library/include/geometry/algorithm/azimuth.hpp", "src/library/src/geometry/cache.cpp"]}
{"id": "C45", "title": "Adaptive candidate radius terminates", "statement": "The candidate search doubles the radius until candidates are found or the upper limit is reached, terminates whenever the first radius is positive, and in CIRCLE mode returns exactly the edges within the final radius, so that no candidates means that no edge lies within the upper limit; in CIRCLE mode a first radius that is not positive leaves the search with an exception. (Counterexamples: in COMBINED mode radius 0 is doubled forever, and the index is not asked again, so enlarging the radius never helps.)", "quantifier": "all radii, limits and query answers", "why_tests_cant": "Unbounded loop over an oracle.", "anchors": ["src/library/include/matching/algorithm/candidate_search.hpp: _candidate_search_individual"]}
{"id": "C46", "title": "Vertex index map stays aligned with the graph", "statement": "While a network is imported, index i of the vertex index map always refers to the i-th vertex, also when memory runs out during an insertion and the insertion is retried.", "quantifier": "all import histories and crash points", "why_tests_cant": "Crash points.", "anchors": ["src/library/include/io/helper/graph_helper.hpp: add_vertex_with_index_mapping, _add_to_vertex_index_map, add_edge, handle_bad_alloc", "src/library/include/io/memory_mapped/utils.hpp: retry_alloc"]}
{"id": "C47", "title": "Substring by distance cuts at the right places", "statement": "Cutting a line without equal neighbours between two positions in order, the first one on the line, keeps exactly the points strictly between the positions and adds the given or interpolated end points without repeating an equal neighbour; the whole line, empty lines, equal end points and reversed positions give the line or nothing. Distances of two points of a line with pairwise different points are their positions, so that cutting between two of its points yields exactly the points from one to the other; splitting at a point projecting into exactly one segment yields the points up to it and the points behind it. (Counterexamples: a start behind the end of the line yields the whole line between the end points; equal neighbours raise; at a point where the line meets itself the two parts overlap.)", "quantifier": "all lines and position pairs", "why_tests_cant": "Continuum of positions.", "anchors": ["src/library/include/geometry/algorithm/substring.hpp: substring"]}
{"id": "C48", "title": "Route concatenation keeps lengths", "statement": "Merging routes puts the lines of all valid routes that have a length one after the other: the length of the result is the sum of the lengths, attached routes give a connected route over the same points from the first to the last, gaps are closed or raise an exception if asked for; joining removes only the meeting point; trimming removes exactly a longest common return part (the end of the first route that is the reverse of the beginning of the second), plus the turning point if the directions are opposite there. (Counterexamples: a part strictly inside one line raises; an empty line at the joint makes trim_merge raise.)", "quantifier": "all lists of routes", "why_tests_cant": "Arbitrary lists including empty routes.", "anchors": ["src/library/include/geometry/network/route/route.hpp: merge, attaches, length, trim_merge, extract_return_line"]}
{"id": "C49", "title": "Dynamic programming on the environment reaches a fixed point", "statement": "Value iteration on an environment with nonpositive rewards returns values that satisfy the Bellman equation within the threshold on every state it explored, and the policy is greedy for them; its return is within the threshold per step of the best. It ends if there is no way back to a state. (Counterexamples otherwise: rewards of both signs cancel in the sum that stops the sweeps; a loop with cost and without discount never ends; a loop without cost keeps the policy extraction from ending.)", "quantifier": "all finite environments", "why_tests_cant": "All environments.", "anchors": ["src/library/include/learning/algorithms/value_iteration.hpp"]}
{"id": "C50", "title": "Exported edge ids follow the route", "statement": "The list of edge ids of a route contains, in travel order and with consecutive repetitions collapsed, the id of the edge found for every driven segment: an edge having exactly this segment if there is one, otherwise one of those touching it whose direction differs least. For routes over whole edges these are exactly the ids of the edges. (Counterexamples: for a segment that is only a part of an edge on a straight road the id of a merely touched neighbour may be reported; between the parts of a track repetitions remain.)", "quantifier": "all matches", "why_tests_cant": "All candidate/policy combinations.", "anchors": ["src/library/include/matching/algorithm/route.hpp: edge_ids, edges_list"]}
{"id": "C51", "title": "Merging edge tags is a lossless union", "statement": "Merging the tags of one edge into another keeps the present tags and their order, adds exactly the missing ones, repeats none, and changes no other edge or node.", "quantifier": "all tag storages, edge ids and tag lists", "why_tests_cant": "The union property is over all lists and map contents.", "anchors": ["src/library/include/io/helper/tag_helper.hpp: merge_map_tags"]}
{"id": "C52", "title": "Attributes of lines made of several parts", "statement": "A line made of several non-empty parts reports as length the sum over the parts that have one, as azimuth the one from the very first to the very last point, and as directions the turns of its parts plus those at the joints where consecutive parts touch, in order; the has_ queries agree with these, and the eager and lazy variants report the same values however often and in whatever order they are asked. With exact addition, parts of at least two points that touch end to start have the length and the turns of the one joined line. (Counterexamples: merging into or assigning to an eager line made of several parts keeps the old values; a part of a single point hides the turn at it; an empty part is undefined behaviour.)", "quantifier": "for all lists of parts, all points, all lengths, azimuths and directions functions, and all sequences of queries", "why_tests_cant": "Tests use a few concrete lines; the claim ranges over every number of parts, every pattern of touching joints, and every order of cached queries.", "anchors": ["src/library/include/geometry/rich_type/multi_rich_line.hpp", "src/library/include/geometry/rich_type/multi_rich_line_data.hpp", "src/library/include/geometry/rich_type/eager_multi_rich_line.hpp", "src/library/include/geometry/rich_type/lazy_multi_rich_line.hpp"]}
{"id": "C53", "title": "Route between two candidates", "statement": "The route between two candidate edges leads from the one projected point to the other. If both lie on the same edge, the first one strictly inside of it and before the second, it is the part of the edge between them; otherwise it is the rest of the first edge, the cached shortest route and the beginning of the second edge, with within_edge_turns reduced only by ways there and back. It is invalid exactly if there is no shortest route. (Counterexample: a candidate at the very beginning of an edge is led around the block to a candidate further along the same edge.)", "quantifier": "all pairs of candidate edges, all networks, with and without within_edge_turns", "why_tests_cant": "The cases (same point, same edge in either order, empty line before or after the projection, trimming at the start, at the end or at both) combine with arbitrary geometry.", "anchors": ["src/library/include/matching/algorithm/route.hpp: candidate_route"]}
{"id": "C54", "title": "Route of the chosen candidates", "statement": "For a policy whose neighbouring entries belong to different measurements and are connected by routes, the resulting route leads from the projection of the first to the projection of the last entry and is the concatenation of these routes, with join_merges only without points at which two of them meet inside of an edge; it is invalid exactly if nothing moves. Two neighbouring entries of the same measurement mark a skip: the route ends there and what follows starts anew. (Counterexamples: three entries of the same measurement in a row are routed across; join_merges draws a line over a gap after an unreachable entry.)", "quantifier": "all policies, all candidates, all routes between them", "why_tests_cant": "Skips, unreachable pairs, routes without length and joining interact over policies of arbitrary length.", "anchors": ["src/library/include/matching/algorithm/route.hpp: candidates_route, candidates_policy"]}
{"id": "C55", "title": "Routes own or outlive: copying, merging, joining and cutting leave no reference to a released line", "statement": "A route refers to lines of its own and to lines of others. A copy, the merge of several routes, the two routes after a join, and the cuts and trimmed merges of routes whose own lines come first show exactly the lines the line-level model of C48 prescribes, own only freshly made lines in the order of the references, change no foreign line, and stay readable after their sources are destroyed. sub_route(from, to) copies exactly the own lines the cut begins with: the cut outlives the route iff no own line follows a foreign one in it. In general this fails (refuted): the cut of a mixed route, and the route candidate_route returns after trimming twice when an edge begins with a repeated point, refer to a destroyed line.", "quantifier": "for all heaps, routes, cuts, numbers of routes", "why_tests_cant": "A dangling reference usually still shows the old data; whether the own lines precede the foreign ones depends on the geometry of the edges trimmed.", "anchors": ["src/library/include/geometry/network/route/route.hpp:58-112", "src/library/include/geometry/network/route/route.hpp:471-560", "src/library/include/geometry/network/route/route.hpp:684-904", "src/library/include/geometry/network/route/route.hpp:958-1019", "src/library/include/matching/algorithm/route.hpp:197-213"]}
{"id": "C56", "title": "Which edges the candidate search NEXT adds", "statement": "In NEXT mode the edges found nearest are completed by all edges going out of either of their ends and then by all edges going back along one of the edges so far; the result is a set with these edges and no others. The measurement does not influence the additions: the intended restriction to adjacent edges that are not farther than the edge itself does not take effect (refuted), since the distance of the edge is compared with itself.", "quantifier": "for all graphs, measurements and sets of edges", "why_tests_cant": "The candidates are more than needed but the matching is still plausible, so that output comparisons do not show the wrong line.", "anchors": ["src/library/include/matching/algorithm/candidate_search.hpp:155-202"]}
{"id": "C57", "title": "Candidates created for a measurement", "statement": "For a measurement and the edges found near it, every edge with a length that has no candidate yet gets exactly one new candidate that is not adopted, edges without a length get none, and the set stays ordered by distance with all earlier candidates kept. The projection of a candidate is the closest point of the edge or a point within 1e-4 of it that replaces it (the nearest point of the line for lines up to the switch size), its distance is that of the measurement to the projection, and its two partial lines split the edge: all of it after the projection at its begin, all before it at its end, or two proper parts whose length is neither zero nor that of the edge. The switch size never falls below 2, and where both search variants agree the candidates do not depend on the measured times. That both variants always agree (as the comment says) is refuted, and so is that a clock of coarse resolution is harmless.", "quantifier": "for all measurements, edge sets, line geometries, existing candidates, switch states and measured times", "why_tests_cant": "Which variant runs depends on times measured at run time, so a test cannot force it, and the deviating cases need a foreign node within a tenth of a millimetre.", "anchors": ["src/library/include/matching/algorithm/candidate_search.hpp:204-366"]}
{"id": "C58", "title": "Adopting candidates of other measurements", "statement": "After the adoption passes every measurement has one result with its own index. The candidates it had itself are kept in order, all candidates are ordered by distance and no two are equal. Every other candidate is adopted from one that another measurement had itself, with its distance measured anew: from a direct neighbour with sibling adoption, from one that is near (within the distance of the farthest own candidate) with nearby adoption, from any with reverse adoption. Conversely, with sibling adoption a measurement has all candidates of its neighbours, with nearby adoption all that are near, and with reverse adoption the other measurement then has all of its own. The nodes are exactly the ends of the edges, each once, ordered by distance. That the result does not depend on the direction in which the track is passed is refuted for reverse adoption.", "quantifier": "for all tracks, candidate sets and settings of the three adoption switches", "why_tests_cant": "Sets of different measurements are changed while the passes walk through them; tests compare final routes, where a missing or doubled candidate rarely shows.", "anchors": ["src/library/include/matching/algorithm/candidate_search.hpp:368-581", "src/library/include/matching/candidate/candidate_edge.hpp:80-96", "src/library/include/matching/candidate/candidate_node.hpp:46-56"]}
{"id": "C59", "title": "Azimuth and turns of a route", "statement": "The azimuth of a route is that from the first to the last point of all its lines in a row, empty lines ignored; if these are equal or there are none, there is no azimuth and an exception is raised. The turns of a route are the turns of its lines and those between a line and the next one that continues it, each counted once; without any an exception is raised, exactly when has_directions is false. For connected lines of two points or more the turns are those of the joined line. Refuted: has_directions raises out_of_range when a line is a single point, and an empty line hides the turn between its neighbours.", "quantifier": "for all routes, points and angle operations", "why_tests_cant": "The loops run over pairs of neighbouring lines with a special last round; tests use few routes, without degenerate lines.", "anchors": ["src/library/include/geometry/network/route/route.hpp:215-420"]}
{"id": "C60", "title": "Policy iteration finds a best walk", "statement": "If every reached state offers an action and is found before the states its steps lead to (as in environments in which each step leads one layer on), policy iteration ends after at most one round more than there are states, reads and writes within its vectors, and its policy is that of a walk to the end whose discounted return no other walk surpasses, whatever the threshold and the signs of the rewards. Refuted without that order: the evaluation stops when the sum of the values does not change, although the values do, and the walk returned is not a best one. Refuted where no action is offered: the evaluation takes the default action and may read outside of the vector.", "quantifier": "for all environments, discounts, thresholds, vector capacities", "why_tests_cant": "Optimality is a statement on all walks of all environments; that evaluation is exact after one sweep depends on the order of the states, which tests do not vary.", "anchors": ["src/library/include/learning/algorithms/policy_iteration.hpp:48-278"]}
{"id": "C61", "title": "Q-learning runs, tries only offered actions and ends its policies", "statement": "For any random numbers and time limit, Q-learning ends with all accesses of its table in range; only actions offered in reached states get entries; a step changes one entry only, to learning_rate * (reward + discount * greatest entry of the next state). An extracted policy takes greatest entries and is that of steps of the environment; it reaches the end if no walk is longer than the limit of steps. Refuted: the update is not that of Q-learning, the previous value cancels out (operator precedence), so that settled learning finds a best walk for the discount multiplied by the learning rate, not for the discount set. Refuted: a policy reaches the end when walks are longer than the limit; a policy is extracted when the episodes run out.", "quantifier": "for all environments, random numbers, time limits, settings", "why_tests_cant": "Results depend on random numbers; the wrong update still learns something plausible.", "anchors": ["src/library/include/learning/algorithms/q_learning.hpp:50-241"]}
{"id": "C62", "title": "Scores of the hidden Markov model are finite and non-positive, and the decoder picks the best chain of valid routes", "statement": "With non-negative candidate distances, lengths, directions and factors and azimuths in [-180, 180], every observation score of hmm::set is finite and not positive: the probability is the share of the padded greatest distance that is left, above 1/101, cubed exactly on the first and last point, and falls strictly with the distance. A transition score is minus infinity exactly for an invalid route and otherwise finite and not positive; it is 0 for a route that follows the track. It is the sum of a length part (ratio of shorter to longer, squared up to a cut off, divided by a hundred beyond ten times), an azimuth part, a turn part from the third point on, and a part for the turns of the route, each with its own factor; measures that are missing add nothing. Run on these scores, with candidates at every point, the Viterbi decoder returns a chain of candidate edges with valid routes whose sum of scores is not exceeded by any other, or the empty policy exactly if there is no such chain.", "quantifier": "all candidate distances, tracks, routes, factors and numbers of points and candidates; any logarithm that is non-positive, monotone and 0 at 1", "why_tests_cant": "The scores depend on continuous values and on combinations of missing measurements; tests only compare final matches of sample tracks and cannot show that no other chain of candidates scores better.", "anchors": ["src/library/include/environment/environments/hmm.hpp:116-293", "src/library/include/learning/algorithms/viterbi.hpp:44-145"]}
{"id": "C63", "title": "Rewards of the step-wise environment are never positive and consist of the stated penalties", "statement": "With non-negative lengths, distances and factors, no reward computed by single::_reward is positive, whatever the state and action. The penalty of a failure is the length of the rest of the track, non-increasing along the track. The environment skips only if errors are to be skipped, and then exactly if the route is invalid or more than ten times as long as the way between the two points. Along a valid route the reward is minus the sum of a distance part (both edges, the last point threefold), a length part weighted by the ratio of the lengths, an azimuth part, a turn part from the third point on and a part for the turns of the route, for neighbouring points measured on the track and else between the points. With longer states a previous valid route that does not attach costs a failure and ends the episode, one that attaches adds a turn and a return part. A longer route costs more than one shorter by the same difference; that a shorter route always costs more the shorter it is, is false.", "quantifier": "all tracks, candidates, routes, states, actions and factors", "why_tests_cant": "Non-positivity over all combinations of missing measurements, skips and state sizes is what the learners rely on; tests run sample tracks with fixed settings.", "anchors": ["src/library/include/environment/environments/single.hpp:274-490", "src/library/include/environment/environments/single.hpp:522-530"]}
{"id": "C64", "title": "The clean-up passes do their work together", "statement": "For every properly drawn imported network and every selection of passes (simplification, unconnected parts, duplicate nodes, duplicate roads), running the selected passes in the order of the program succeeds and leaves a network that is again properly drawn and indexed, whose nodes are nodes of the original network with the same data and tags, and whose roads consist of line pieces of the original network; all pieces are still there unless unconnected parts were to be removed, and each as often as before unless repeated roads were. With the pass for repeated roads no two roads have the same identifier and line; with the pass for duplicate nodes at most half of the nodes at a position (rounded up) are left, and only one without simplification. If every way has a way back, the nodes left after the removal of unconnected parts can all be reached from each other. Without simplification no road is changed. A failed allocation without memory mapping ends the clean-up with all roads still there.", "quantifier": "all drawn networks, all selections of passes", "why_tests_cant": "Interaction of passes: a test checks one pass on one small network; that no pass undoes what an earlier one achieved or leaves broken incidence lists behind is a statement about all networks.", "anchors": ["src/app/include/app/prepare.hpp:109-146", "src/app/include/app/prepare.hpp:219-225", "src/library/include/geometry/network/network_import.hpp:68-266", "src/library/include/io/helper/graph_helper.hpp:162-184"]}
{"id": "C65", "title": "Learning on the step-wise environment ends with a nearly best way", "statement": "For every candidate set, every sort of the actions that permutes them, every discount in [0,1], every positive threshold and whatever state the environment was left in, value iteration run on the stateful environment (which numbers its states while they are met and caches its results) ends without undefined behaviour. The policy and the rewards it gives are those of one way from the first measurement to the end. No way through the environment has a discounted return better by more than discount times threshold for each step. The entries of the policy name existing edges of existing candidates and their measurements never go back; every measurement is passed. This holds for the rewards as computed by the environment with factors and lengths that are not negative, at the default state size. That the chosen edges can be reached from each other is refuted when errors are not skipped.", "quantifier": "all candidate counts, rewards, sorts, discounts, thresholds, initial states and all ways", "why_tests_cant": "The state numbering, the cache and the learner are intertwined; tests see single tracks and cannot compare with all ways through the candidates.", "anchors": ["src/library/include/learning/algorithms/value_iteration.hpp:48-252", "src/library/include/environment/environments/single.hpp:148-217"]}
{"id": "C66", "title": "Matching with value iteration: from the learned policy to the route", "statement": "If erroneous routes are skipped and every measurement has candidates, matching a track with the step-wise model ends, and what it gives is a sequence of runs: the policy names exactly one edge for each measurement in their order, runs are separated by repeating their last edge, inside of a run each edge is reached from the one before by a valid route, and the route put together from the policy consists exactly of the routes of the runs one after another: no line is drawn over a gap and no line of a run is lost. It is invalid just if the routes of all runs are. Where measurements without candidates are kept in the track, this fails: over one such measurement there is a gap although the route is valid, over two there is a line.", "quantifier": "all tracks, candidate distances, route data, reward factors, discounts, thresholds, sorting functions, road networks and both joining modes", "why_tests_cant": "The claim spans learning, skipping, the coding of gaps in the policy and the assembly of the route, over unboundedly many tracks and networks; a test sees single policies.", "anchors": ["src/library/include/learning/algorithms/value_iteration.hpp:97-252", "src/library/include/environment/environments/single.hpp:186-224", "src/library/include/matching/algorithm/route.hpp:250-303"]}
{"id": "C67", "title": "Matching with the hidden Markov model: from the decoded policy to the route", "statement": "If every measurement has candidates, matching with the hidden Markov model ends. If there is no choice of one edge per measurement in which neighbours are linked by valid routes, the policy is empty and the route invalid; else the policy is such a choice with the greatest sum of scores, and the route put together from it leads from the place of the first edge to that of the last one over exactly the routes between the chosen edges. A single measurement that cannot be reached empties the whole result.", "quantifier": "all tracks, candidate distances, route data, score factors, road networks and both joining modes", "why_tests_cant": "Optimality over all choices and the shape of the assembled route for unboundedly many measurements and candidates cannot be checked by running cases.", "anchors": ["src/library/include/learning/algorithms/viterbi.hpp:44-145", "src/library/include/environment/environments/hmm.hpp:116-293", "src/library/include/matching/algorithm/route.hpp:250-303"]}
{"id": "C68", "title": "A track is matched part by part until the time is up", "statement": "For every environment and learner, the result of matching a track that consists of several parts has one prepared line, one policy and one route for each of the first parts in their order, and the edge ids of these parts one after the other; the route of a part is that of its policy, or consists of the edges along it. The result is marked as aborted exactly if the time limit was noticed; a result that is not marked covers all parts, and the learner was run for each. A marked result took at least the time allowed, none is marked without a limit. The merged route consists of the routes of the parts, with the sum of their lengths. A marked result may be complete.", "quantifier": "all tracks with any number of parts, clocks, limits, environments, learners and export options", "why_tests_cant": "When the clock passes the limit cannot be controlled in a test; the claims are about all moments and all numbers of parts.", "anchors": ["src/library/include/matching/matcher.hpp:104-187", "src/library/include/util/time_helper.hpp"]}
{"id": "C69", "title": "Exporting the network to OpenStreetMap and reading it again", "statement": "The OpenStreetMap exporter writes one node per place on the edges, one location per node number, and for every edge a way drawn with its points in order and carrying its tags, or a two-way way of an edge it leads back along. Reading the file with the importer gives a graph with exactly one vertex per place and an edge from one place to another exactly if some edge of the network is drawn from the one directly to the other, provided every vertex lies on an edge, lines are not empty, the filters keep the roads, and no road that can be driven back along is tagged one-way. Without these conditions it is false: opposite one-way roads lose a direction, a vertex without edges displaces the first point, equal edges are multiplied, and vertices at the same place are connected.", "quantifier": "for all networks, point and coordinate types, tags, filters meeting the stated conditions, and iteration orders of the point map", "why_tests_cant": "the export is only tried on a few maps, on which roads are not drawn twice and isolated vertices have been removed; whether a direction or a connection is lost shows only for particular combinations of tags and coincident points", "anchors": ["src/library/include/io/network/osm_exporter.hpp:49", "src/library/include/io/network/osm_exporter.hpp:125", "src/library/include/io/network/osm_exporter.hpp:161", "src/library/include/io/network/osm_handler.hpp:54", "src/library/include/geometry/algorithm/reverse.hpp:24"]}
{"id": "C70", "title": "Importers of single data sets build the graph of their files", "statement": "The arc-node, Melbourne, GISCUP and Seattle importers build a structurally sound graph with exactly the vertices of the node rows (one per node id for Seattle) and exactly one edge per arc, edge or geometry row (two for two-way Seattle rows), each between the vertices its row names, with the line prescribed by the format; rows naming unknown nodes or edges end the import with an exception. Refuted: ids repeat over arc-node data sets, ids of a later Melbourne data set resolve to vertices of an earlier one, GISCUP and Seattle lines are not reprojected with their nodes, an empty Seattle line with a new node is undefined behaviour.", "quantifier": "for all lists of data sets, all points and all reprojections, directed, bidirectional and undirected graphs", "why_tests_cant": "Tests run a few files; indices of nodes, clearing of the maps between data sets and reprojection only show up with several data sets and non-trivial reprojection.", "anchors": ["src/library/include/io/network/arc_node_importer.hpp:61", "src/library/include/io/network/melbourne_importer.hpp:58", "src/library/include/io/network/giscup_importer.hpp:58", "src/library/include/io/network/seattle_importer.hpp:56"]}
{"id": "C71", "title": "GPX, ground truth and standard input tracks are read completely and in order", "statement": "The GPX importer forwards exactly the wanted tracks of all readable files, in order, with the id prescribed by name, metadata and numbering, every segment being the reprojected points sorted by time (file order if there are no times or the seconds strictly increase). The Seattle ground truth importer yields a track whose steps are exactly the steps of the lines travelled, if these are attached, which is a path of the imported network if nodes have distinct places; unknown edges and one-way roads against their direction end with an exception. The standard input importer reads the lines up to the first blank one, the k-th giving the track numbered k exactly if it is a list of points, a line or several lines. Refuted: GPX ids may repeat; untimed points move to the front; points of the same second may be swapped; ground truth with unattached lines loses points; an empty line is undefined behaviour.", "quantifier": "for all files, points, texts, settings, all sorts meeting the contract of std::sort and all WKT readers", "why_tests_cant": "Ids of nameless tracks, ties and missing times, unattached lines and separators interact; samples show few combinations.", "anchors": ["src/library/include/io/track/gpx_track_importer.hpp:53", "src/library/include/io/track/seattle_ground_truth_importer.hpp:45", "src/library/include/io/track/input_importer.hpp:47"]}
{"id": "C72", "title": "Result files have every value below its column", "statement": "The exporters of matches, comparisons, candidates and tracks write nothing without a result, and otherwise one header and one row per result (per candidate edge for candidates, each edge of every candidate of every environment once, in order), whatever happens to the file afterwards; every row has, in the order of the columns, the value of each column that is known, lengths that are not there as 0 and is_result as 1 exactly for the edges in the policy. With known columns (asked for once, in the exporter of comparisons) every value stands below its name. A column with an unknown name (also one with a blank) shifts the fields after it below other names; a list column of a comparison asked for twice has all segments twice; fewer policies than environments lead to an exception.", "quantifier": "all lists of column names, all sequences of results, any point at which the file stops being writable", "why_tests_cant": "tests use a few fixed lists of columns; the correctness of the columns depends on the order and combination of those asked for", "anchors": ["src/library/include/io/results/csv_results_exporter.hpp:52", "src/library/include/io/results/match/csv_match_exporter.hpp:48", "src/library/include/io/results/match/csv_candidates_exporter.hpp:60", "src/library/include/io/results/compare/csv_compare_exporter.hpp:47", "src/library/include/io/results/track/csv_track_exporter.hpp:42"]}
{"id": "C73", "title": "The spatial indices hold exactly the network and lookups find what is there", "statement": "When the building of the spatial indices of a network returns, whatever kinds of storage are used and however often memory did not suffice meanwhile, the index of the points has every node exactly once with its descriptor, and the index of the segments every segment of every edge exactly once with the edge and the position in its line, and nothing else; an exception is possible only after memory did not suffice, and with storages in files only after at least two refusals. A query for edges returns, in increasing order and each once, exactly the edges with a segment that satisfies it; a query for the nearest k segments returns at most k edges, at least one if there is any, none of them farther away than an edge that is not returned. A point is found in the nodes exactly if a node is there, and the node returned is there; a point found in the edges is an end of the segment returned; it is missed only if a segment passes through the point (refuted in general). Looking up ids returns exactly the descriptors with that id in order. Building twice enters everything twice, and the nearest k segments may be of fewer than k edges (refuted).", "quantifier": "for all networks, kinds of storage, numbers of retries, sequences of refusals of memory, points and predicates, and all R-trees that fulfil their contracts", "why_tests_cant": "Tests use a few small networks and never run out of memory in the middle of building an index; a duplicate or missing entry after a retry would only show as a rarely missing candidate.", "anchors": ["src/library/include/geometry/network/network.hpp:106-185", "src/library/include/geometry/network/network.hpp:363-422", "src/library/include/io/helper/index_build_helper.hpp:99-183", "src/library/include/io/helper/index_helper.hpp:110-162"]}
{"id": "C74", "title": "A saved network is the network that is loaded", "statement": "Opening, with the same settings, what a preparation has written gives the same network, whichever of tags, indices and graph are memory-mapped, whatever the directory contained before and in whatever order hash maps are written: the same graph with every cached length and angle, the same values in the spatial indices, and tags that answer every lookup of tags, node tags and edge tags as before and are finalized exactly if they were. An archive of which a part at the end is missing is never loaded: opening throws, as it does when a file is missing or a memory-mapped part is opened as an archive; archives that are opened as memory-mapped storages are not recognised (refuted). If a file cannot be opened for writing, nothing is reported, and new tags are later combined with an old graph; if the file of the indices cannot be opened for reading, nothing is reported and the first lookup follows a null pointer (refuted).", "quantifier": "for all networks, tags with unique keys, settings of memory mapping, contents of the directory, orders of hash maps and lengths at which a file ends", "why_tests_cant": "A field that is forgotten, or saved and loaded in different orders in one of the fourteen serialize functions, only shows for networks that use the field; write errors are never provoked in tests.", "anchors": ["src/library/include/io/memory_mapped/storage/tag_storage.hpp:302-325", "src/library/include/graph/compressed_sparse_row.hpp:116-204", "src/library/include/geometry/rich_type/rich_line_data.hpp:224-233", "src/library/include/io/serialization/serializer.hpp:31-40", "src/library/include/io/serialization/deserializer.hpp:33-46", "src/app/include/app/network.hpp:470-530"]}
{"id": "C75", "title": "The printed summaries of comparisons, matches and tracks", "statement": "For every list of results the verbose printers print one numbered line per result in the order of the queue and one last line whose counts, points, durations and lengths are the sums over all results, whose means are sum over count (infinite as soon as one error fraction is) and whose weighted error is added plus missed length over the length of all ground truths: a mean of the single error fractions weighted with the lengths of the ground truths, hence between the smallest and the largest of them. The weighted correct fraction lies in 0..1, is 1 without errors and at least the mean weighted with the longer lengths, but it is not a mean (refuted: 1/3 and 1/3 give 1/2). The last line does not depend on the order of the results; for one comparison of lines with extent it equals the fractions of the comparison (refuted without extent: the line says infinitely wrong, the summary completely correct). With a console only texts are printed and no summary, every correct and added segment on its own line; the first missed segment stands on the line of its heading (refuted). Without console and verbosity nothing is printed.", "quantifier": "for all lists of results, all amounts and texts", "why_tests_cant": "the sums are over any number of results that come in any order; tests print a few results and compare rounded text", "anchors": ["src/library/include/io/results/results_output_printer.hpp:27-57", "src/library/include/io/results/compare/compare_output_printer.hpp:30-190", "src/library/include/io/results/match/match_output_printer.hpp:29-115", "src/library/include/io/results/track/track_output_printer.hpp:28-92"]}
{"id": "C76", "title": "Memory mapped storages keep what was written", "statement": "A memory mapped storage that is created anew is empty, whatever was at its path before, and every other open storage keeps what it holds. Whatever sequence of writing, growing, dropping and moving follows, its pointers stay valid, it holds the last value that had place (or nothing if it was made anew since then), its size never decreases, and no other file, name or mapping is concerned. At its end the file is removed if it is to be destroyed, and else keeps its name and value, also when it is shrunk. Opening for reading succeeds exactly if the file exists and was written by the same build; otherwise nothing is changed and no mapping remains. Growing on demand finds place for whatever needs at most half of the available space and does not grow beyond that space. False of the code: move assignment leaks the mapping and the file of the target, shrinking a storage that stays open leaves dangling pointers, growing a read-only storage makes it writable, the number of retries is undefined if the available space is less than the storage, and the last failed attempt still doubles the storage.", "quantifier": "for all states of the file system and of the mappings, all other open storages, all values with their sizes, all sequences of operations and all available sizes", "why_tests_cant": "Tests run one sequence on one disk; dangling pointers into a removed mapping, leaked files and the interplay of several storages on one directory do not show up in results.", "anchors": ["src/library/include/io/memory_mapped/storage/base_storage.hpp", "src/library/include/io/memory_mapped/storage/graph_storage.hpp", "src/library/include/io/memory_mapped/utils.hpp"]}
{"id": "C77", "title": "Points are reprojected from the given to the chosen reference system", "statement": "The options mean: the source system is that of the given code with the named type, or with the type of the code if none is named; the target is the given code, else WGS 84 or web mercator for a named geographic or cartesian type, else the source; a transformation takes place exactly if code or type differ; options are refused exactly if the source has no code or a type has to be found for an unknown code. If the types fit to their codes, which is so whenever no type is named, every point of a track gets the coordinates of its place in the target system, every node of an OSM file does so if the source is geographic, every vertex of the other formats if source and target have the same type, and every exported node lies at its place if the network is in WGS 84 or untransformed and not geographic. False of the code: files with nodes and arcs whose target has another type get no coordinates at all; a network from WGS 84 in another type is exported without coordinates; a network transformed between projected systems is exported at wrong places; named types are not checked against codes and misspelt ones ignored; tracks in another system of the same type are accepted.", "quantifier": "for all codes, names, transformations that satisfy the contract, and points", "why_tests_cant": "the wrong cases leave variables unassigned or need particular pairs of systems; tests use one pair", "anchors": ["src/library/src/geometry/srs.cpp", "src/library/include/geometry/algorithm/reproject.hpp", "src/library/include/geometry/algorithm/srs_dispatch.hpp", "src/app/include/app/prepare.hpp"]}
{"id": "C78", "title": "Options mean what they say", "statement": "The value of an option is that of the command line, else of the configuration file, else the default; options are refused exactly if one is unknown, of another kind, repeated in a source without being a list, or if a given configuration file does not exist. Matching, preparation and comparison begin exactly if there is one mode, the directory, reference systems, file names, track files and enumerated values are right. Each part of a network is memory mapped as its own option says, else as the option for its group, else as the general one, else it is. Track files have the given type in lower case, else the one extension they share. The radius lies between its limits, which are the given ones where these permit it; search and model are those that were named; quiet goes before verbose; edge ids are collected exactly if they are among the columns; duplicate nodes are removed if asked for or, unless denied, for the Seattle format. False of the code: a given file type has no effect in comparison; comparison accepts list files that it cannot read; whether differing extensions are refused depends on the order of files; temporary files may have the names of the network files, and two names may mean one file. The options of each mode are the ones of help.txt in the same order, and an option that nobody mentions has the default given there; required are exactly the input files and the output folder (prepare) and the network (match).", "quantifier": "for all command lines, configuration files and oracles", "why_tests_cant": "there are more than a hundred options in three modes and two sources; tests give a few", "anchors": ["src/app/src/app/options.cpp", "src/app/src/app/settings.cpp", "src/app/include/app/options.hpp"]}
{"id": "C79", "title": "One mode is run and the exit status tells how it ended", "statement": "The two passes over the options agree on the options of all modes. The work of a mode is done exactly if this mode and no other is asked for, both passes accept the options, all required options are there, and neither help nor version is asked for; it is done at most once. The status is 3 exactly if work failed, 2 exactly if there is not one mode, 1 exactly if the first pass ends the program, else 0. False of the code: options refused by the second pass end with status 0; help and version end with 1 or 0 depending on the mode; help for the server shows nothing and the server does nothing.", "quantifier": "for all command lines, configuration files and behaviours of the modes", "why_tests_cant": "tests do not run the program with wrong options and look at its status", "anchors": ["src/app/src/app/global.cpp", "src/app/src/app/prepare.cpp", "src/app/src/app/match_cli.cpp", "src/app/src/app/compare.cpp"]}
{"id": "C80", "title": "The matcher and its exporters end without losing or touching destroyed parts", "statement": "A matcher (or comparator) and its exporters, run by a thread that constructs, starts, reads and queues, stops, joins and destroys it: if the tracks are read to their end, no thread is left when the members are destroyed, so nothing destroyed is used; every accepted task was executed and every exporter wrote, in the order in which it got them and once, the results of exactly the executed tasks that pass it a result, except for tasks and results queued between the two reads of the loop condition of a dispatcher (in executions without such a moment nothing is missing). While tracks are read the threads come to rest if nothing is queued, with everything executed and written, so the owner never waits forever for a place; after reading, in whatever way it ended, every schedule leads to the end. An exception before the first accepted task is harmless. False of the code: after an exception while reading, the exporters are destroyed while workers still execute tasks (the base class joins last), and a result accepted by an exporter can be missing in the output.", "quantifier": "for all numbers of threads, queue sizes, exporters, tasks, numbers of results passed, and all schedules of the owner, the dispatchers and the workers", "why_tests_cant": "Schedules of a dozen threads cannot be enumerated by tests, a destructor that races with workers usually wins or loses unnoticed, and a lost last row needs one unlucky interleaving.", "anchors": ["src/library/include/util/coordinator.hpp:40", "src/library/include/matching/matcher.hpp:66", "src/app/include/app/match.hpp:147", "src/app/src/app/compare.cpp:93", "src/library/include/io/results/csv_results_exporter.hpp:36"]}
{"id": "C81", "title": "Remembered attributes of routes", "statement": "A lazy route answers any sequence of questions about length, azimuth, turns and connection as the plain route of its lines does, with 'not valid' where that raises; an eager route does so from its construction on. Merging forgets what the parts remembered, so the route reported for the chosen candidates is that of plain routes although joining leaves wrong lengths behind. Refuted: with a line of one point behind another line is_connected raises at first and may then answer wrongly; an eager route without lines is not connected; joined routes report their old length.", "quantifier": "for all routes, all sequences of questions, all values remembered by merged routes, all policies", "why_tests_cant": "The answer depends on what was asked before; tests ask once, on routes without degenerate lines.", "anchors": ["src/library/include/geometry/network/route/route_data.hpp: _compute_length, _compute_azimuth, _compute_directions", "src/library/include/geometry/network/route/lazy_route.hpp: lazy_route", "src/library/include/geometry/network/route/eager_route.hpp: eager_route", "src/library/include/matching/algorithm/route.hpp: candidates_route"]}
{"id": "C82", "title": "Remembered attributes of segments", "statement": "A lazy or eager segment reports the length and azimuth of its points ('not valid' for equal points) after any sequence of questions and of assignments of lazy and eager segments; a segment handed out by a line does so whatever the line remembers. Refuted: after assigning a plain segment, a lazy segment that was asked before and any eager segment report the length of the points they had before.", "quantifier": "for all segments and all sequences of questions and assignments", "why_tests_cant": "Staleness depends on the order of questions and assignments.", "anchors": ["src/library/include/geometry/rich_type/rich_segment_data.hpp: _compute_length, _compute_azimuth", "src/library/include/geometry/rich_type/lazy_rich_segment.hpp: operator=", "src/library/include/geometry/rich_type/eager_rich_segment.hpp: operator=", "src/library/include/geometry/rich_type/lazy_rich_line.hpp: rich_segment"]}
{"id": "C83", "title": "Counters of allocated bytes", "statement": "After any program of making, copying, moving and rebinding counters and allocators and of taking and giving back memory through any copy, every counter shows the number it started with plus the bytes containers hold from its allocators, provided no request is refused, blocks go back to an allocator of their counter and chains have one element per block; swapping memory between containers keeps the sum of all counters right; copies show the same number for ever; the fast mapped allocators never give memory back to their segment; the thread safe counter is right under every schedule. Refuted: a refused request stays counted, swapped containers make counters wrong and wrap around, chains of several elements and expanding in place are miscounted, the plain counter loses updates of two threads. Assigning or moving a counter makes it show the number of the other one and changes no third one; setting a counter sets those that share it.", "quantifier": "for all programs, worlds, word sizes and schedules", "why_tests_cant": "Tests allocate a little and in one thread; the counter is wrong only after refusals, swaps, chains or particular schedules, and its value is only logged.", "anchors": ["src/library/include/io/allocator/allocation_counter.hpp:23-71", "src/library/include/io/allocator/thread_safe_allocation_counter.hpp:24-72", "src/library/include/io/allocator/counting_allocator.hpp:22-78", "src/library/include/io/allocator/counting_polymorphic_allocator.hpp:22-84", "src/library/include/io/memory_mapped/allocator/counting_interprocess_allocator.hpp:22-157", "src/library/include/io/memory_mapped/allocator/interprocess_allocator.hpp:22-117"]}
{"id": "C84", "title": "Boxes around points and segments", "statement": "The box around a point for a positive radius has the width and the height of the circle: it contains every point within the radius, is the smallest box that does, and contains nothing farther away than the radius times the root of two; a query of the index with it finds every segment that has a point within the radius. The box around a segment is the smallest that contains everything within the radius of one of its points. A radius that is not positive is refused. With these boxes the median merge, the candidate search in CIRCLE mode, the adoption of near candidates and the comparison miss nothing. A round buffer has the least power of two of points that is at least eight and at least a quarter of the radius. (Counterexamples: the box contains points beyond the radius; for huge radii the number of points overflows and eight are taken; a radius of -4 or less is undefined behaviour before it is refused.)", "quantifier": "all points, segments and radii (cartesian coordinates)", "why_tests_cant": "Boundary cases lie on measure-zero sets; radii are unbounded.", "anchors": ["src/library/include/geometry/algorithm/buffer.hpp: buffer, buffer_box, segment_buffer_box"]}
{"id": "C85", "title": "Points are totally ordered, equal and hashed in accord", "statement": "For points without NaN exactly one of smaller, equal and larger holds, the order is the lexicographic one and transitive, the other four operators agree with it, equal points (also with zeroes of different sign) have equal hashes, and equals_points is the same equality up to three dimensions. Hence a set of points is increasing, has no two equal points, holds every inserted point up to equality and does not depend on the order of insertion, and a table keyed by points finds exactly the entry first made for an equal point. With NaN all of this fails: a point is not equal to itself, a set loses other points, a table keeps duplicates.", "quantifier": "all points of any dimension, all segments, all sequences of insertions", "why_tests_cant": "Order laws and canonical sets are statements about all pairs, triples and permutations of points; NaN cases are rare in test data.", "anchors": ["src/library/include/geometry/point.hpp: hash_value, operator==, operator<, less_impl", "src/library/include/geometry/algorithm/equals.hpp: equals_points", "src/library/include/geometry/algorithm/compare.hpp: _create_points_set", "src/library/include/geometry/network/network_import.hpp: remove_duplicate_nodes (node_map)"]}
{"id": "C86", "title": "Turning angles and lengths of lines", "statement": "The turns of a line are the differences of neighbouring azimuths: one fewer than segments, each at most half a circle, the same whether the azimuths are handed over or not if the segments are connected; their sum is the angle between the first and the last segment up to full circles, at most the sum of their absolute values, which is the same backwards if no point is repeated. A vector of no segments throws. On the plane the length of a line is the sum of its segments; on the sphere it is a thousandth of it, because length uses the radius in kilometres and distance in metres.", "quantifier": "all lines, all lists of segments, all azimuth functions with values between -180 and 180 degrees", "why_tests_cant": "Sums over lines of any length and the unit of a spherical length need a statement over all lines; existing tests only look at single values.", "anchors": ["src/library/include/geometry/algorithm/direction.hpp", "src/library/include/geometry/algorithm/azimuth.hpp", "src/library/include/geometry/algorithm/length.hpp: length", "src/library/include/geometry/algorithm/distance.hpp: distance"]}
{"id": "C87", "title": "The estimate of A* suits the plane, not the sphere", "statement": "The straight distance of the coordinates is a metric. Where the length of every piece of an edge is at least the straight distance of its ends, the estimate is consistent and A* returns a shortest path to every reachable goal; this is so on the plane. On the sphere and the ellipsoid the estimate is in degrees and the lengths in metres, and across the date line the estimate is almost 360 for a way of some metres: A* returns a route more than four times as long as the shortest one.", "quantifier": "all networks, starts and goals; all points of one to three dimensions; a network at the date line as counterexample", "why_tests_cant": "Optimality over all networks and the failure at the date line cannot be seen in networks of one city.", "anchors": ["src/library/include/geometry/network/network.hpp: a_star_shortest_paths (heuristic_func, weight_func)", "src/library/include/geometry/algorithm/distance.hpp: euclidean_distance, distance"]}
{"id": "C88", "title": "Views of containers give exactly their elements", "statement": "A loop over a view visits every element once and in order, one over a subview exactly those of its range; ranges that follow each other share out the container. Positions of a view count from the front or from the back and are refused outside; a subview is refused exactly if its range is none of the container, and its front, back, size and positions within are those of its range. Not so: the first element counted from the back is refused, position zero of an empty view is undefined, and a position of a subview beyond its range gives its neighbour's element or reads behind the container.", "quantifier": "all containers with random access, all ranges, all positions", "why_tests_cant": "Positions at and beyond every boundary of every range are unbounded; no test calls them at all.", "anchors": ["src/library/include/graph/container_view.hpp: at, front, back, begin, end, next", "src/library/include/graph/container_subview.hpp: container_subview, at, front, back, size, empty"]}
{"id": "C89", "title": "The modes do what the options say, and a preparation leaves a whole network or none of its temporary files", "statement": "With options that are accepted, a preparation runs exactly one importer, that of the format and profile, and then the passes that were asked for, in a fixed order, each once. If it ends, the graph, tags and index files are complete and in the form of the memory options, the exports are there, its temporary files are gone and other files untouched, provided that its files are different; if a step throws, no step behind it is taken and no temporary file is left. Nothing is created if an input file is missing. Matching with the same names and memory options finds each of the three files complete and in the form it reads, and reads the tracks with exactly one reader; comparing reads both files once, in order. Not so: names of temporary files may be those of the network, names that differ as texts may be the same file, a failed preparation replaces the old network by incomplete files, console output still empties the output file, and comparing starts its threads before it refuses file types that the options accept.", "quantifier": "all options, all disks, all steps that may throw", "why_tests_cant": "A step may fail at any point and names are free: neither can be enumerated; the modes have no tests.", "anchors": ["src/app/include/app/prepare.hpp: _execute_import, _simplify, _serialize, _export, _import_network", "src/app/src/app/prepare.cpp: _check_files, _prepare", "src/app/include/app/network.hpp: _create_network_import, _create_network, save_network, load_network", "src/app/include/app/match.hpp: _start_matcher, _read_tracks, _start_matching", "src/app/src/app/compare.cpp: _read_compares, _start_comparison"]}
{"id": "C90", "title": "A time limit gives the full result or none", "statement": "Value iteration and policy iteration under a time limit either give the very policy they give without a limit, having been in time at every look at the clock, or they give up with an empty policy; they give up just if the time is up at some look, and at most one look later, and never touch a state outside of their vectors because of it. With a limit they end even where they would not end without one, except for a circle in the last walk, which does not look at the clock. A track whose result is not marked as aborted has the result it has without a limit, whatever the clock shows.", "quantifier": "all environments, discounts, thresholds, clocks (also ones going backwards), limits, points of time at which the limit is reached, and tracks", "why_tests_cant": "Tests cannot stop the clock at each of the looks of a run, and a limit that cuts the search for states short makes invalid reads that only a particular moment reveals.", "anchors": ["src/library/include/learning/algorithms/value_iteration.hpp:48-252", "src/library/include/learning/algorithms/policy_iteration.hpp:48-278", "src/library/include/environment/environments/single.hpp:97-122", "src/library/include/matching/matcher.hpp:129-168", "src/library/src/util/time_helper.cpp:21-44"]}
{"id": "C91", "title": "A time limit in the candidate search and the hidden Markov model", "statement": "Under a time limit the candidate search gives the candidates it gives without one, all its looks at the clock being in time, or gives none and ends at the first look that is late. Setting the hidden Markov model and running the Viterbi algorithm gives the sequence of the full tables, each of its entries a candidate of the model, or the empty policy with some look late; unfinished tables are never read, at whatever moment the time is up. A track matched with the hidden Markov model, value iteration or policy iteration and not marked as aborted has the result it has without a limit, the search for candidates included.", "quantifier": "all tracks, networks, settings of adoption, scores obeying the order laws, clocks whose alarm stays (which the time helper's does), and moments at which the time is up", "why_tests_cant": "A test would have to stop the clock between any two rounds of seven loops; the tables are then of different lengths and only the latch of the time helper keeps the algorithm from reading beyond them.", "anchors": ["src/library/include/matching/algorithm/candidate_search.hpp:60-73", "src/library/include/matching/algorithm/candidate_search.hpp:365-581", "src/library/include/environment/environments/hmm.hpp:77-295", "src/library/include/learning/algorithms/viterbi.hpp:44-145", "src/library/include/environment/environments/single.hpp:147-156"]}
{"id": "C92", "title": "From options to settings and from CSV text to rows", "statement": "In matching and comparing every option arrives at its own setting of the library (unchanged, or corrected as stated for radius limits, number of nearest, turns within edges, search and model), all options about matching and CSV files are covered, and an option nobody gives leaves the library's own default (apart from the output file name). A CSV row takes its id from the id columns joined by the aggregator (two rows have equal ids exactly if these columns agree, provided the aggregator is one character not occurring in them), its time from the time columns, its geometry from x and y or the WKT column; rows after the skipped ones of each existing file are read, numbered from zero. In comparing the four options about times have no effect on CSV files; settings that differ only in times read the same tracks if within each id times ascend. Refuted: comparing orders a file as matching does with the same options; joined ids are always distinct; unreadable times are refused; an absent time column leaves no trace.", "quantifier": "all option sources accepted by the parser, all corrected configurations, all files, columns, cells and settings, all readers of WKT, coordinates and time formats", "why_tests_cant": "The settings are fifty fields copied one by one and a row depends on texts of any form; tests use a few options and a few files with one time format.", "anchors": ["src/app/src/app/settings.cpp", "src/library/include/matching/settings.hpp", "src/library/include/compare/settings.hpp", "src/library/include/io/csv_settings.hpp", "src/app/src/app/compare.cpp:51-91", "src/library/include/io/track/csv_track_importer.hpp:68-214", "src/library/src/io/csv_importer.cpp", "src/library/src/io/importer.cpp"]}
{"id": "C93", "title": "The tag and index storages over their life", "statement": "Over any sequence of adding entries (with the growth that a refusal causes), reading, growing, finalizing, closing and opening again, with or without shrinking, the memory mapped tag storage answers like a plain record of the ten named objects: every object that is there shows what was last put into it and no pointer into an earlier mapping is followed; a new or dropped storage is empty and not finalized. Finalizing keeps the other maps and removes the three maps from texts and tags to numbers: asking for one of them afterwards is undefined behaviour whatever is done in between (refutation: the pointers are left), and a finalized storage that needs to grow throws that an object could not be found although only place was missing (refutation). The storage in memory gives the same answers; saving and loading give back every map, except that a loaded finalized storage has three empty maps where the saved one had none (refutation). The memory mapped index storage gives both trees as soon as they have place after the allowed growths, keeps them over later growth and refuses a second building; by the letter of C++ its first growth is undefined behaviour (refutation), and growing after dropping throws (refutation).", "quantifier": "all sequences of operations, sizes, contents and place requirements", "why_tests_cant": "growth and finalization meet only when a file happens to be full after finalizing; whether a dangling pointer is followed depends on where the operating system maps the file again", "anchors": ["src/library/include/io/memory_mapped/storage/tag_storage.hpp:162", "src/library/include/io/memory_mapped/storage/tag_storage.hpp:541", "src/library/include/io/memory_mapped/storage/tag_storage.hpp:672", "src/library/include/io/memory_mapped/storage/index_storage.hpp:273", "src/library/include/io/helper/index_helper.hpp:122"]}
{"id": "C94", "title": "Rows and texts of nodes, edges, candidates, measurements and tracks", "statement": "The file of the nodes (edges) of a network that has any starts with the names of the columns, once, and then has one row for each node (edge) in the order of the graph with as many fields as names, the length of an edge being NaN if there is none; nodes with different numbers have different first fields. A network without nodes or edges gives files without anything, also without the names (refutation). The tags are written in brackets with commas between them; if all are known and no key and no value has a quote, they can all be read back in order from the text, otherwise two different lists of tags can have the same text (refutation) and a tag that is not known leaves a comma without a tag (refutation). A candidate has one row for each of its edges, in order and numbered from zero, with a field for each name, and the projection starts at the point of the track; a point outside of the track is refused exactly if there is an edge. Every text is the name and in brackets the fields with commas between them. A track has one field less than it has names of columns (refutation); a track made of coordinates has their pairs as points, an odd number of coordinates is undefined behaviour (refutation). Measurements are ordered and compared by their time alone, so that equal ones may have different points (refutation). The comparisons given to the sorting of tracks are strict weak orders by the number of points.", "quantifier": "all graphs, tags, texts of numbers and geometries, candidates, tracks", "why_tests_cant": "a test compares a file of one small network without quotes in its tags", "anchors": ["src/library/include/geometry/network/node.hpp:75", "src/library/include/geometry/network/edge.hpp:81", "src/library/include/geometry/network/network_base.hpp:112", "src/library/include/matching/candidate/candidate.hpp:57", "src/library/include/geometry/track/track.hpp:64"]}
{"id": "C95", "title": "The imported network becomes the compressed one", "statement": "Whatever allocations of the graph and tag storages fail meanwhile and however often the graph is dropped and made anew: when the conversion of the imported network returns, the graph is the compressed form of the imported one (C05), every node and every edge has exactly its tags in order, although the numbers of the tags are new, no other number has tags, and the tags are finalized. An exception is possible only if an allocation failed, and with files it leaves an empty graph; with files the conversion succeeds if the tags have place and not more allocations of the graph fail than there are retries. False of the code: if the file of the tags has to grow while the tags of a node or an edge are copied, the behaviour is undefined (refutation).", "quantifier": "all graphs with exact incidence and up to date indices, all tags, all patterns of failed allocations and numbers of retries", "why_tests_cant": "a test has enough memory, so that the graph is never dropped after tags were copied", "anchors": ["src/library/include/io/helper/graph_helper.hpp:112", "src/library/include/io/helper/graph_helper.hpp:145", "src/library/include/io/helper/tag_helper.hpp:376", "src/library/include/graph/compressed_sparse_row.hpp:298"]}
{"id": "C96", "title": "The tags of an OpenStreetMap file come into the network", "statement": "For every sequence of nodes and ways with tags and every pattern of failed allocations of the tag storages of the handler and of the network: when the import returns, the graph is the one of C29, every vertex has exactly the tags of the first visible node with its number and every edge exactly those of its way, in order, and numbers of nothing visible and kept have no tags; compressing the network afterwards keeps all this (C95). An import that does not return had a failed allocation. Needed: ways with the same number have the same tags (otherwise the first one wins for all edges), and a map whose emplace does not take the list away before it fails, as otherwise one failed allocation of a memory mapped storage silently loses the tags of a way; with such a map and a file the same failure is undefined behaviour, since the list to enter lies in the mapping that growing replaced.", "quantifier": "all sequences of nodes and ways with all tags, visible or not, all filters, all patterns of failed allocations of the two tag storages, in memory or memory mapped", "why_tests_cant": "tests import a few small files and never run out of mapped memory, so neither the two tag storages with their different numbers nor the nested retries are seen; a lost list of tags changes no graph and is noticed only by later filters or exports", "anchors": ["src/library/include/io/network/osm_handler.hpp:45", "src/library/include/io/helper/osm_handler_helper.hpp:110", "src/library/include/io/helper/osm_handler_helper.hpp:160", "src/library/include/io/helper/graph_helper.hpp:274", "src/library/include/io/helper/tag_helper.hpp:331", "src/library/include/io/helper/tag_helper.hpp:350"]}
{"id": "C97", "title": "Where the tags of joined roads come from", "statement": "Simplification never takes a tag from a way, also when memory runs out meanwhile; every road afterwards has all tags of all ways it runs along; and every tag a way has afterwards was there before or belonged to a way that one comes to from a road of this way, passing on from way to way only at places where at most two directions meet. A way none of whose roads leads into another way at such a place keeps exactly its tags. This also holds of the states left by failed allocations and of passes taken up again. False of the code with complete simplification: that a road joined with no other keeps its tags (tags belong to ways: another road of its way, anywhere in the network, may have been joined with another way), and that both directions of a road keep one number (a joined road gets the number of the road it begins with).", "quantifier": "all networks with exact incidence whose lines begin and end at their nodes, all tags, both kinds of simplification, all patterns of failed allocations of joined lines; nothing is taken away: all networks and all failures", "why_tests_cant": "The tests simplify networks without tags; which way passes tags on to which others depends on the order of all joins in the network.", "anchors": ["src/library/include/geometry/network/network_import.hpp:283", "src/library/include/geometry/network/network_import.hpp:425", "src/library/include/io/helper/tag_helper.hpp:195"]}
{"id": "C98", "title": "The vectors of the index build are reserved exactly as they are filled", "statement": "Building the vectors the spatial indices are made from asks the memory for nothing but the space of all points at once and the space of all segments at once. When it returns, the vectors hold every node and every segment of the network exactly once and have no capacity to spare; it throws only if one of the two requests is refused, and is undefined only if the file is already bigger than the space available. In a file it succeeds if twice the needed space is available, and the file stays below twice that space unless it was bigger before; in memory it succeeds if both vectors fit. The file of the indices is grown to at least twice the bytes of what is put into them. False of the code: building again after a network was built may throw although there is place, because adding to a full vector tries only one doubling; and an almost full disk is undefined behaviour even for an empty network.", "quantifier": "for all networks, including edges with empty lines, sizes of the values and of the file, available spaces, answers of the allocator and growth strategies of the vectors", "why_tests_cant": "Tests never run out of space in a memory mapped file, and a reservation that is off by one is only visible as an allocation more.", "anchors": ["src/library/include/io/memory_mapped/storage/index_build_storage.hpp:266", "src/library/include/io/helper/index_build_helper.hpp:108", "src/library/include/io/helper/index_build_helper.hpp:122", "src/library/include/io/helper/index_build_helper.hpp:171", "src/library/include/geometry/network/network.hpp:106", "src/library/include/io/helper/index_helper.hpp:125"]}
{"id": "C99", "title": "Equal keys have equal hashes", "statement": "For points, segments, lines, nodes and edges, equality is symmetric and transitive and equal values have the same hash, for every function that mixes hashes; two values are equal exactly if they have the same id and as many points with equal coordinates, in the same order. So a hashed table keyed by them finds at every moment exactly what was inserted under an equal key and not erased since, however many buckets it has and whenever their number changes; the first of equal insertions stays. The removal of duplicate edges with its hashed set therefore does exactly what comparing every edge with all edges before it does (C18). A hash of the bits instead of the value would lose entries (0.0 and -0.0), and an edge with a coordinate that is not a number is not found again (refuted).", "quantifier": "for all coordinates with a symmetric and transitive equality (also without reflexivity, as for NaN), mixing functions, sequences of insertions, lookups and erasures, numbers of buckets and graphs", "why_tests_cant": "Tests use a handful of keys that rarely collide; a hash that disagrees with the equality only loses entries when a table has the right size.", "anchors": ["src/library/include/geometry/point.hpp:30", "src/library/include/geometry/network/node.hpp:150", "src/library/include/geometry/network/edge.hpp:157", "src/library/include/geometry/rich_type/rich_segment.hpp:207", "src/library/include/geometry/rich_type/rich_line.hpp:541", "src/library/include/geometry/network/network_import.hpp:242"]}
{"id": "C100", "title": "Lines written as text are read again", "statement": "A line of any number of parts that an exporter writes as well-known text is read by the CSV importer without an exception as a line: the parts with points come back in order with the same points in order, and each coordinate is the number read from the nearest decimal of twelve significant digits, so that its relative error is at most 6e-12. The order of coordinates is kept, a number read from the text is written with the same digits again, and if no part is empty the whole text is the same when it is written again. Not true: that different coordinates stay different, and that empty parts survive. Reading comes to an end for every text, and a text is skipped exactly if, in capitals, it begins with none of POINT, LINESTRING, MULTILINESTRING and GEOMETRYCOLLECTION EMPTY. A number in the middle between two of twelve digits is written with an even last digit.", "quantifier": "all lines of parts of points with rational coordinates; all layouts of numbers that are one word and are read as the nearest machine number", "why_tests_cant": "A round trip over a handful of tracks meets neither ties, powers of ten and exponents of numbers nor empty parts, and cannot show that no finite line is misread.", "anchors": ["src/library/include/geometry/algorithm/wkt.hpp:28", "src/library/include/geometry/rich_type/multi_rich_line.hpp:423", "src/library/include/geometry/rich_type/multi_rich_line.hpp:371", "src/library/include/io/track/csv_track_importer.hpp:147", "src/library/include/io/track/csv_track_importer.hpp:166", "src/library/include/io/track/csv_track_importer.hpp:175"]}
{"id": "C101", "title": "The printed numbers of candidates and combinations", "statement": "The number of candidates printed for a match is the number of edges of all candidates of all its parts, and the candidates exporter reserves as many rows. The number of combinations of the hidden Markov model is the number of scores in its table, whether the time ran out or not; in time it is one for each edge of the first candidate and one for each pair of edges of neighbouring candidates. The number of combinations of the step-wise environment is the number of all choices in the states met so far, both special actions included, and at least the number of results worked out. Not true: that it is the number of results worked out.", "quantifier": "all candidates, clocks, searches and scores; all sequences of resets, offered actions and moves of a learner", "why_tests_cant": "The numbers are only printed, and no test compares them with the tables; they differ by the moment at which the time runs out and by the order in which a learner meets the states.", "anchors": ["src/library/include/environment/environments/hmm.hpp:305", "src/library/include/environment/environments/hmm.hpp:321", "src/library/include/environment/environments/single.hpp:131", "src/library/include/environment/environments/single.hpp:139", "src/library/include/io/results/match/match_output_printer.hpp:55", "src/library/include/io/results/match/csv_candidates_exporter.hpp:72"]}
{"id": "C102", "title": "Moving the node table of the OpenStreetMap importer", "statement": "If the node table is only moved before anything was added, after a lookup, after adding a node whose id is not less than those before, or onto a table that is marked to be sorted, then all calls before and after the moves are answered as by a table that was not moved: a node is found iff it was stored, with its first data. Not true: that any move keeps the answers. The moves leave out the mark that the table has to be sorted, so a node stored before the move may not be found after it.", "quantifier": "all sequences of additions, lookups and moves, with memory running out anywhere; all helpers that the table is moved onto", "why_tests_cant": "The importer moves its table only while it is empty, so no run of the program shows that the mark is lost; a test would have to move a table with nodes out of order.", "anchors": ["src/library/include/io/helper/osm_handler_helper.hpp:62", "src/library/include/io/helper/osm_handler_helper.hpp:69", "src/library/include/io/helper/osm_handler_helper.hpp:117", "src/library/include/io/helper/osm_handler_helper.hpp:136", "src/library/include/io/helper/osm_handler_helper.hpp:221"]}
{"id": "C103", "title": "Learners keep valid references to the environments of their parts", "statement": "For a track of any number of parts, however vectors grow and wherever the time runs out, no reference into a reallocated vector is used while the parts are matched; every part that was reached ends with the environment, policy and route it would have alone, each learner still refers to the environment of its own part, and the exporter of candidates finds a policy for each environment. Not true: that the references would stay valid without the reservation of the vectors.", "quantifier": "all numbers of parts, all environments, learners and routes, all growth rules, all moments at which the time is up", "why_tests_cant": "A stale reference may read the old memory and give the right answer; a test sees neither the reallocation nor the growth rule of another standard library.", "anchors": ["src/library/include/matching/matcher.hpp:114", "src/library/include/matching/matcher.hpp:115", "src/library/include/matching/matcher.hpp:132", "src/library/include/matching/matcher.hpp:134", "src/library/include/matching/matcher.hpp:148", "src/library/include/io/results/match/csv_candidates_exporter.hpp:77"]}
{"id": "C104", "title": "The tolerance of the median merge follows the distance to the roads", "statement": "In the median merge with a network the tolerance at a measurement is the least number that is neither below the given tolerance nor below half the distance to the nearest edge; without adaptivity, network or nearest edge it is the given tolerance, and the merge is the plain one. With a positive tolerance every track is merged, whatever the network. Without one the merge throws only at a measurement that lies on its nearest edge or has none to look at, so a track that lies beside the roads everywhere is still merged. A larger tolerance need not leave fewer measurements.", "quantifier": "for all tracks, tolerances, networks (any nearest-edge query and any distances) and any nth_element meeting its contract", "why_tests_cant": "tests run on a few tracks and one network and cannot cover every combination of tolerance and distance, in particular the exception at a measurement lying exactly on a road", "anchors": ["src/library/include/geometry/algorithm/median_merge.hpp:151", "src/library/include/geometry/algorithm/median_merge.hpp:154", "src/library/include/geometry/algorithm/median_merge.hpp:156", "src/library/include/geometry/algorithm/median_merge.hpp:159"]}
