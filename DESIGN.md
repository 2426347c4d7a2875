# Design of the formal model

Subject: `map-matching-2` (C++), read as text in `/repo`. Nothing is built or run. All statements below are about a
Gallina model written by reading the code; the tie between model and code is the citation on each definition.

## Layout

`rocq/theories/`
- `X.v` – *model* of one part of the code: computable definitions only, each with a comment naming file and lines.
- `XProofs.v` – lemmas.
- `XProps.v` – the specification vocabulary that is not part of the code (small, independent of the model's helper
  functions), the property theorems (closed by `exact lemma`), `Print Assumptions` after each, and an `Example` per
  theorem showing a concrete, non-trivial instance of the hypotheses.

`MANIFEST.json` maps properties to theorems. `seeded/LOG.jsonl` records mutation tests of the theorems.

## Modelling conventions

- Containers are lists; descriptors are indices or stable identities (naturals) as appropriate per file.
- Exceptions are explicit outcomes; undefined behaviour (out-of-bounds access, dangling reference, dereferencing end)
  is a separate explicit outcome, never a default value.
- Unbounded loops use fuel; running out of fuel is its own outcome and the theorems either exclude it by proving enough
  fuel is always supplied or state it as a refutation of termination.
- Floating point is modelled by exact arithmetic (`Z`, `Q`) or by an abstract ordered structure given as section
  variables that become universally quantified hypotheses. Rounding, NaN propagation and signed zeros are not modelled.
- Calls into other libraries (Boost.Geometry distances, R-tree queries, allocators, clocks) are arbitrary functions /
  oracles quantified in the theorems.
- Allocation failure is modelled as an adversarial oracle at each allocation point.
- A statement that the code violates is proved as `..._refuted` with a concrete witness; the true part is proved under
  the weakest hypothesis found, sometimes named `..._partial`.

## Trusted base

- The kernel of Coq 8.16.1 (the gate also runs `coqchk`). No plugin, no native computation; `vm_compute` is used in the
  examples and in a few witness computations.
- **Assumptions.** `Print Assumptions` was run on every theorem named in `MANIFEST.json` (all theorems `Cxx_…` of the
  `*Props.v` files). Two of them, `C87_metric` and `C87_euclid` (file `EuclidProps.v`), use the real numbers of the standard
  library and list exactly its three axioms `ClassicalDedekindReals.sig_not_dec`, `ClassicalDedekindReals.sig_forall_dec`
  and `FunctionalExtensionality.functional_extensionality_dep`. Every other theorem answers `Closed under the global
  context`. There is no axiom of our own. Rationals (`Q`) stand for numbers everywhere else, not the reals of the standard
  library. Section variables and hypotheses are all discharged: they appear as universally quantified
  premises of the theorems, and an `Example` beside the theorem gives an instance that meets them.
- The reading of the C++ code as cited in the comments. This is the part no tool checks. The mutation tests of
  `seeded/LOG.jsonl` check the theorems against changed models, not the model against the code.
- Contracts of libraries, stated as premises or in the header of the model: Boost.Geometry (distances, azimuths, closest
  points, simplification distance are arbitrary functions, with order axioms only where stated), the R-tree (answers what
  is near, in any order), Boost.Thread (header of `Coordinator.v`), `boost::unordered_flat_map` (strong guarantee of
  `emplace`, at most one entry per key), `osmium::TagsFilter` (first matching rule decides), `std::sort` (a sorted
  permutation), the priority queue (any minimal element), the memory allocator and the clock (adversarial oracles).

## What is modelled, file by file

Paths are below `/repo/src/library/include/` unless they start with `app/` (`/repo/src/app/include/`) or `src/`
(`/repo/src/library/src/`).

| Code | Model | Properties | Left out or simplified |
|------|-------|------------|------------------------|
| `graph/adjacency_list.hpp` | `AdjList.v` | C01-C04, C06 | containers other than `std::list`; self-defined mixtures of categories |
| `graph/compressed_sparse_row.hpp` | `Csr.v` | C05 | memory mapping, serialization; numbers do not overflow |
| `graph/container_view.hpp`, `container_subview.hpp` | `Utils.v` | C39 | iterator categories |
| `graph/algorithm/{breadth,depth}_first_search.hpp` | `Traverse.v` | C07, C08 | events `examine_*`, which no visitor of the project uses |
| `graph/algorithm/{dijkstra,a_star}_shortest_path.hpp` | `Search.v` | C09-C11 | NaN; hash maps are functions; queue order among equals is arbitrary |
| `geometry/network/network.hpp` (searches, `extract_route`, `fitting_edge`) | `Search.v`, `Router.v`, `Assemble.v` | C11, C12, C50 | building of the spatial index (an oracle) |
| `matching/algorithm/route.hpp` | `Router.v`, `Assemble.v` | C13, C50, C53, C54 | locking of the cache; logging |
| `learning/algorithms/viterbi.hpp` | `Viterbi.v` | C14, C15 | rounding of sums; NaN |
| `learning/algorithms/value_iteration.hpp` | `Value.v`, `EnvLearn.v` | C49, C65, C66 | rounding; time limit |
| `learning/algorithms/policy_iteration.hpp` | `Policy.v` | C60 | rounding; time limit |
| `learning/algorithms/q_learning.hpp` | `QLearn.v` | C61 | rounding; random numbers and clock are oracles |
| `geometry/network/network_import.hpp`, `app/prepare.hpp` (passes) | `NetImport.v` | C16-C18, C64 | tags of the merged edges (C51); reading of options |
| `geometry/algorithm/simplify.hpp` | `Simplify.v` | C19, C20 | NaN; the distance to a segment is an oracle |
| `geometry/rich_type/*.hpp` | `RichLine.v`, `MultiRich.v` | C21-C23, C52 | capacity, allocators, serialization |
| `geometry/algorithm/compare.hpp` | `Compare.v` | C24, C25 | rounding, NaN; debug output |
| `util/coordinator.hpp` | `Coordinator.v` | C26 | what a task computes; it is assumed to return or throw |
| `io/helper/tag_helper.hpp` | `Tags.v` | C27, C28, C51 | characters of the strings after a NUL are cut as the code does |
| `io/network/osm_handler.hpp`, `io/helper/osm_handler_helper.hpp` | `Osm.v` | C29, C30 | reading of the file; reprojection |
| `io/network/osm_manual_importer.hpp`, `osm_importer.hpp` | `OsmFilter.v` | C31 | — |
| `io/track/csv_track_importer.hpp`, `src/io/csv_importer.cpp` | `Csv.v` | C32 | parsing of numbers, times and WKT |
| `io/track/edges_list_importer.hpp` | `EdgesList.v` | C33 | splitting of lines into numbers |
| `src/compare/comparator/*.cpp` | `Forwarder.v` | C34 | locking: calls are atomic |
| `geometry/common.hpp`, `src/io/importer.cpp` | `Utils.v` | C35-C37 | angles are rationals in degrees |
| `geometry/algorithm/median*.hpp` | `Median.v` | C38 | two coordinates; spatial index is an oracle |
| `util/time_helper.hpp` | `Utils.v` | C40 | clock is an oracle |
| `environment/environments/single.hpp` | `Env.v`, `MdpReward.v` | C41, C63 | rounding; overflow of 64 bit numbers |
| `environment/environments/hmm.hpp` | `HmmScore.v` | C62 | rounding; logarithm is a parameter with its order |
| `matching/algorithm/detect.hpp`, `matching/defect.hpp` | `Detect.v` | C42 | angles are oracles |
| `geometry/algorithm/{convert,reverse}.hpp` | `Convert.v` | C43 | — |
| `geometry/cache.hpp`, `geometry/algorithm/{distance,azimuth}.hpp` | `DistCache.v` | C44 | the formulas of the distances |
| `matching/algorithm/candidate_search.hpp` | `Radius.v`, `NextEdges.v`, `CandCreate.v`, `CandAdopt.v` | C45, C56-C58 | rounding; time limit; the index is an oracle |
| `io/helper/graph_helper.hpp`, `io/memory_mapped/utils.hpp` | `GraphHelper.v`, `Tags.v` | C46 | growing of the file is "more memory" |
| `geometry/algorithm/substring.hpp` | `Substring.v` | C47 | NaN |
| `matching/matcher.hpp` (`_match_impl`) | `Matcher.v` | C68 | logging; the learner is an oracle (composed in C66, C67) |
| `io/network/osm_exporter.hpp` | `OsmExport.v` | C69 | tags of nodes; the file format; precision of locations is a function |
| `io/network/{arc_node,melbourne,giscup,seattle}_importer.hpp` | `NetFiles.v` | C70 | parsing of the text rows (files are lists of rows); memory shortage (see C46) |
| `io/track/{gpx_track,seattle_ground_truth,input}_importer.hpp`, `io/importer.cpp` `parse_time` | `TrackFiles.v` | C71 | the gpx library, WKT (`read_wkt` is a function), time formats (the milliseconds read are given), times before 1970 |
| `io/results/csv_results_exporter.hpp`, `io/results/{match/csv_match,match/csv_candidates,compare/csv_compare,track/csv_track}_exporter.hpp` | `Export.v` | C72 | texts of geometries and numbers are functions; quoting by the csv library; one worker thread in order (C26) |
| `geometry/network/network.hpp` (`build_spatial_indices`, lookups), `io/helper/index_build_helper.hpp`, `io/helper/index_helper.hpp`, `retry_alloc` | `SpatialIndex.v` | C73 | R-trees are oracles with contracts (values that satisfy the predicate; k nearest); whether memory suffices is a list of answers; the address of the first member of an object that was not found is null |
| `serialize` members of graph, node, edge, rich line, tag, index and graph storages; `io/serialization/*.hpp`; `save_network`, `load_network`, opening of files in `app/network.hpp` | `Archive.v` | C74 | archives are sequences of atoms (numbers, floating point numbers, points, strings), without version numbers and class ids; R-trees are saved as their values; a memory-mapped file holds the object itself |
| `results_output_printer.hpp`, `compare_output_printer.hpp`, `match_output_printer.hpp`, `track_output_printer.hpp` | `Printers.v` | C75 | amounts are rational numbers or infinity; the format of numbers is not modelled, a line is the record of its values; the queue and its worker are those of C26 |
| `base_storage.hpp`, `graph_storage.hpp` (the memory mapped part), `retry_alloc` of `io/memory_mapped/utils.hpp` | `Storage.v` | C76 | the file system is a directory of inodes, a mapping refers to an inode; pointers are numbers of mappings; what is stored is one value with a size; a moved path is a function of the path; Windows, shared memory, open-or-create, copy-on-write and other failures of the operating system are not modelled |
| `geometry/srs.cpp`, `reprojector.hpp`, `algorithm/srs_dispatch.hpp`, `algorithm/reproject.hpp` and their callers | `Srs.v` | C77 | what Boost knows of an EPSG code and its transformations are oracles with a contract; point types are values; a point that is not assigned is `None` |
| `app/options.cpp` (which options there are, their storing, their corrections), the enumerations of `app/settings.cpp` | `Options.v` | C78 | splitting words and lines into names and values is left to Boost; values have five kinds; `po::store` and `po::notify` are modelled as documented; numbers are rationals without NaN; directories and the syntax of tag filters are oracles |
| `main.cpp`, `app/global.cpp`, the entry functions of `prepare.cpp`, `match_cli.cpp`, `compare.cpp` | `App.v` | C79 | the work of a mode is an oracle that ends or throws; output is a list of events |
| `matcher.hpp`, `comparator.hpp` (constructor, destructor, passing results), `coordinator.hpp` (destructor), `app/match.hpp`, `app/compare.cpp` (the owning thread), exporters as coordinators | `Pipeline.v` | C80 | transition system over Coordinator.v; how many exporters a task passes results to is a parameter; work of a destructor on one exporter is one step; use of destroyed members is a predicate on states |
| `geometry/network/route/{route_data,lazy_route,eager_route}.hpp`, `geometry/rich_type/{rich_segment_data,rich_segment,lazy_rich_segment,eager_rich_segment}.hpp` | `RouteCache.v` | C81, C82 | sums are numbers (no overflow to infinity); attributes of lines are those of their points (C22); moved-from objects; copies are the same value |
| `io/allocator/*.hpp`, `io/memory_mapped/allocator/*.hpp` | `Counting.v` | C83 | shared pointers are indices of cells that are never freed; memory is a list of blocks with identifiers; whether the base allocator can serve a request is part of the operation; threads run under sequential consistency |
| `geometry/algorithm/buffer.hpp` | `Buffer.v` | C84 | cartesian coordinates (for geographic and spherical ones boost computes the circle elsewhere), rational numbers; cosine and sine are an oracle, exact at the quarters; the multi polygon is its one ring |
| `geometry/point.hpp`, `algorithm/equals.hpp`; the set in `compare.hpp` 124, 580-587, the table in `network_import.hpp` 160-178 | `Points.v` | C85 | a point is the list of its coordinates; coordinates are abstract with two comparisons, so NaN and both zeroes are included; containers by what they ask of the comparison |
| `geometry/algorithm/direction.hpp`, `azimuth.hpp` (without the cache, C44), `length.hpp`, `distance.hpp` 24-36 | `Measures.v` | C86 | azimuth and unit distance are oracles; rounding is a parameter; `reserve(size() - 1)` without segments throws for containers that have it |
| `geometry/network/network.hpp` 256-278, `algorithm/distance.hpp` 67-91 | `Estimate.v`, `Euclid.v` | C87 | an edge is its list of points; exact real numbers for the straight distance |
| `graph/container_view.hpp`, `container_subview.hpp` | `Views.v` | C88 | containers with random access, descriptors are indices; indices are unbounded integers |
| `app/prepare.cpp` 22-56, `prepare.hpp` 39-235, `network.cpp`, `network.hpp`, `match_cli.cpp` 22-42, `match.hpp` 36-153, `match.cpp`, `compare.cpp` 34-132 | `Work.v` | C89 | steps that may throw; a file is known by whose data it has, in which form, and whether they are complete; names are resolved by an oracle; not modelled: growing a mapped file by its name |
| `learning/algorithms/value_iteration.hpp` 48-252 and `policy_iteration.hpp` 48-278 with the calls of `abort`, `environments/single.hpp` 97-122, 240-242, `matcher.hpp` 129-168 | `Deadline.v` | C90 | the clock shows anything at each look; rational numbers as in `Value.v`; the looks inside of the candidate search only set the clock the learner starts with |
| `matching/algorithm/candidate_search.hpp` 60-73, 365-581, `environments/hmm.hpp` 77-295 and `learning/algorithms/viterbi.hpp` 44-145 with the looks at the clock, `environments/single.hpp` 147-156 | `Limit.v` | C91 | the candidates of one measurement and the scores are oracles; the clock of `Viterbi.v` is the sequence of answers of the one of `Deadline.v`; the candidates that are left in the environment after giving up matter to no empty policy and are left out of the learner's result |
| `app/settings.cpp` 22-156, `matching/settings.hpp`, `compare/settings.hpp`, `io/csv_settings.hpp`, `app/compare.cpp` 51-91, `app/match.hpp` 89-97, `io/track/csv_track_importer.hpp` 68-214 (text of a row), `io/csv_importer.cpp` 31-51, `io/importer.cpp` 102-114 | `Settings.v` | C92 | splitting of a file into cells, numbers of coordinates, WKT and formatted times are oracles; an exception ends the reading and the tracks passed on before it are left out; a time before 1970 is undefined behaviour (an assertion) |
| `io/memory_mapped/storage/tag_storage.hpp` 162-165, 226-325, 372-384, 432-461, 523-677, 715-782, `index_storage.hpp` 202-220, 269-359, 389-396, `io/helper/tag_helper.hpp` 240-248, 333-351, `io/helper/index_helper.hpp` 122-137, `io/memory_mapped/utils.hpp` 72-87 | `TagStore.v` | C93 | named objects and pointers into mappings by the number of the mapping (addresses are not modelled); a change of a map is one step that either has place or changes nothing; allocators and counters as in C76 and C83 |
| `geometry/network/node.hpp` 75-140, `geometry/network/edge.hpp` 81-146, `geometry/network/network_base.hpp` 112-146, `matching/candidate/candidate.hpp` 57-97, `matching/candidate/candidate_edge.hpp` 54-92, `geometry/track/measurement.hpp` 50-113, `geometry/track/track.hpp` 64-127, `geometry/track/multi_track.hpp` 96-155 | `Rows.v` | C94 | texts of numbers and geometries are given as functions; a file is the list of rows given to the csv writer, whose quoting is not modelled; of `std::sort` only the comparison is modelled |
| `io/helper/graph_helper.hpp` 110-160, 527-535, `graph/compressed_sparse_row.hpp` 297-385 with the converters, `io/helper/tag_helper.hpp` 176-178, 193-196, 376-394 | `Compress.v` | C95 | over `Csr.v` and `Tags.v`; failed allocations of tags and graph by two oracles; the tags of the imported network are given by number; both storages are of the same kind; the checks of the sizes after growing are left out |
| `io/network/osm_handler.hpp` 45-86, `io/helper/osm_handler_helper.hpp` 110-134, 159-215, `io/helper/graph_helper.hpp` 270-294, 394-422, `io/helper/tag_helper.hpp` 331-355, 376-394: with the tags | `OsmTags.v` | C96 | over `Osm.v`, `Tags.v` and `Compress.v`; failed allocations of the two tag storages by oracles, none of table and graph; whether a failing `emplace` has taken its list away is a parameter, as the releases of the library differ; a list that lies in a mapping replaced by growing is undefined behaviour when used |
| io/memory_mapped/storage/index_build_storage.hpp, index_build_helper.hpp 108-183, network.hpp 106-132 | `IndexBuild.v` | C98 | vectors with capacities and the size of the file; the allocator's answers are an oracle, a vector does not grow in its place and gets exactly the capacity it asks for |
| geometry/point.hpp 29-57, node.hpp 138-155, edge.hpp 144-162, rich_segment.hpp 198-212, rich_line.hpp 516-547, network_import.hpp 240-266 | `Hashed.v` | C99 | hashes of numbers and their mixing are arbitrary functions; the unordered containers are buckets whose number may change before any insertion |
| geometry/algorithm/wkt.hpp 26-29, multi_rich_line.hpp 366-392 and 422-430, csv_track_importer.hpp 140-188 | `Wkt.v` | C100 | coordinates are rationals; `to_wkt` and `read_wkt` of Boost.Geometry are modelled by what they write and accept; the layout of one number is an oracle with the contract `spells` |
| hmm.hpp 305-327, single.hpp 131-145, match_output_printer.hpp 50-58, csv_candidates_exporter.hpp 68-72 | `Counts.v` | C101 | tables of `Limit.v` and `Env.v`; sizes are natural numbers |
| osm_handler_helper.hpp 62-75 | `OsmMove.v` | C102 | the table of `Osm.v`; what is left in the source of a move is not modelled |
| matcher.hpp 113-168, csv_candidates_exporter.hpp 74-78 | `PartRefs.v` | C103 | vectors with capacity and allocation number, stale references are undefined behaviour; the environment's and learner's work are functions |
| geometry/algorithm/median_merge.hpp 145-168 | `MedianAdapt.v` | C104 | rational distances; a network is its nearest-edge query and the distances to the lines of edges |
| `geometry/network/route/route.hpp` | `Route.v`, `RouteRefs.v`, `RouteDirs.v` | C48, C55, C59 | rounding of sums; moved-from lines are empty |

Not modelled at all: the geometric formulas and those of reprojection, parsing of WKT, numbers, times and the words of the command line,
the memory mapping of the operating system, progress output, random testing tools.

## Plan per property

| Id | Modelled | Proof |
|----|----------|-------|
| C01 | vertex list, edge list, per-vertex out/in lists with identities | invariant over operation histories |
| C02 | insertion as sequence of appends with a failure oracle at each | case analysis over crash points + rollback |
| C03 | list removal by identity | invariant + exact effect on every list |
| C04 | `clear_vertex`, `remove_vertex` | invariant; refutation for directed graphs with incoming edges |
| C05 | offset vector construction | induction over vertices, range partition |
| C06 | index remapping copy | isomorphism lemma |
| C07 | queue loop with colours | white/gray/black invariant, fuel bound |
| C08 | stack loop with colours | same |
| C09 | priority queue as "extract any minimal" oracle | classic invariant, all tie-breakings |
| C10 | A* loop with estimates | consistent-heuristic invariant; counterexample |
| C11 | visitor that skips over-long edges | soundness invariant; completeness refuted by witness |
| C12 | chain walk and parallel edge choice | induction over chain |
| C13 | router with cache as state machine | refutation + agreement under fixed limits |
| C14/C15 | trellis dynamic programming over scores with minus infinity | invariant: column = max over prefixes; backtrace |
| C16 | merge of chains on abstract edges with point lists | length / geometry preservation |
| C17 | component discovery by BFS | characterisation + refutation |
| C18 | node grouping and edge redirection | invariants |
| C19/C20 | Douglas-Peucker recursion with abstract distance | strong induction |
| C21-C23 | rich line, cached data record | refinement: cache = recomputation; refutations |
| C24/C25 | comparison loop on abstract segments | multiset conservation |
| C26 | transition system: producer, dispatcher, workers | invariant over all schedules, progress measure |
| C27/C28 | finite maps with insertion oracle | dictionary invariant at every crash point |
| C29/C30 | node table, way handler | refinement to a set/sequence specification |
| C31 | string parser | round trip |
| C32 | row processing state machine | refinement to group-by |
| C33 | BFS over choices | longest-prefix optimality |
| C34 | two maps | history induction |
| C35/C36/C37 | integer / character functions | algebra |
| C38 | grouping walk with query oracle | partition lemma |
| C39 | `at` with UB outcome | case analysis |
| C40 | clock oracle | induction over calls |
| C41 | environment state machine with memo tables | refinement to uncached step |
| C42 | defect sets | characterisation; refutation |
| C43 | lists | induction |
| C44 | memo table | invariant |
| C45 | loop with oracle | measure |
| C46 | index map with crash points | invariant |
| C47 | cumulative lengths | induction |
| C48 | routes as lists of lines | algebra |
| C49 | fixed-point iteration | residual lemma |
| C50 | adjacent dedupe | characterisation |
| C51 | merging of tag lists | union |
| C52 | parts of lines | cache = recomputation |
| C53/C54 | route between candidates, route of a policy | paths from place to place; refutations for joining and repeated marks |
| C55 | heap of lines, owned and referred ones | invariant: no reference to a released line |
| C56-C58 | candidate sets | characterisation of the sets after each pass |
| C59 | azimuth and turns | refinement to the sequence of segments |
| C60/C61 | policy iteration, Q-learning | improvement and termination measure; invariants of the table |
| C62/C63 | scores and rewards | sign, parts, what the decoder maximises |
| C64 | passes of `prepare` | composition of C16-C18 |
| C65 | value iteration on the stateful environment | simulation to C49 |
| C66 | learning, policy, route | composition of C63, C65 and C54 |
| C67 | decoding, policy, route | composition of C14, C62 and C54 |
| C68 | loop over the parts of a track, time limit | invariant of the loop |
| C69 | exporter writing entities, composed with the importer of C29 | numbering invariant, set equality of drawn steps |
| C70 | importers of single data sets over the insertion interface of C46 | graph contents as lists, id maps as first row of an id |
| C71 | the remaining track importers | relations for ids, times, lines and texts; ground truth joined with C70 |
| C72 | exporters of results | columns as a table of names and values, invariant of the filling loop, sorted list of places for candidates |
| C73 | spatial indices | specification of one attempt lifted over retries, binds and folds; count of refusals; numbering of lists |
| C74 | saving and loading | a relation between what is written and its reader, closed under sequence; prefix failure; maps up to order |
| C75 | printed summaries | folds as sums; weighted means by comparison of sums; invariance under permutation; lines of a text by splitting at line feeds |
| C76 | life cycle of memory mapped storages | invariant of an open storage, framed by name, file and mapping; induction over operations and retries |
| C77 | reference systems and reprojection | case analysis of codes and types; contract of the transformation for codes that fit to their types |
| C78 | sources, checks and corrections of options | induction over a source with the values seen so far; case analysis of the corrections; specification of file extensions and comma separated lists; the tables of `help.txt` as specification of names and defaults |
| C79 | modes, help and exit status | the two passes agree by C78; case analysis |
| C80 | pipeline of matcher and exporters | invariant over all schedules, projection to C26, lexicographic measure for termination |
| C81 | remembered attributes of routes | invariant: nothing or the value of the plain route; simulation of the loop over the policy |
| C82 | remembered attributes of segments | invariant over sequences of questions and assignments |
| C83 | counters of allocated bytes | invariant over programs: each cell equals its start plus the bytes held, with a running discrepancy inside a step; sums over schedules |
| C84 | boxes around points and segments | the envelope of four points by cases, then linear and quadratic arithmetic; instances of the box oracles of C38, C45, C58, C24; clipping as an instance of the query |
| C85 | points in order | induction over the dimension; sorted lists, canonical by their least element |
| C86 | turns and lengths | induction over the line; telescoping modulo 360; contract of C35 for single turns |
| C87 | the estimate of A* | triangle inequality along the points of an edge, then C10; Minkowski from the plane triangle of the library; a network at the date line by computation |
| C88 | views and subviews | induction over the loop; case analysis on positions; slices that follow each other concatenate |
| C89 | the work of the modes | invariant: a temporary file that is there is open; effect of the steps on the file of one role; case analysis on the accepted words; witnesses are command lines |
| C90 | the time limit | each limited function simulates the unlimited one of C49/C60 up to the first look that is too late; counting looks against fuel for the end; the matcher loop (C68) run in step with an unlimited one |
| C91 | the time limit before the learning | a loop that looks after each round is the fold, or stopped at the first late look; the loops of the search and of the tables put together; C15 for the algorithm; the loop of C90 for the track |
| C92 | from options to settings, from text to rows | one table of options and settings per mode, checked entry by entry with C78; joined ids through splitting at the aggregator; rows by induction over files; the same order by C32 |
| C93 | tag and index storages over their life | simulation of pointers and mappings by a plain record of named objects, over lists of operations; the storage in memory simulated by the same record; induction over retries for the index |
| C94 | rows and texts of nodes, edges, candidates, measurements and tracks | closed forms of the loops by induction; a reader of the text of tags as its inverse; laws of the comparisons |
| C95 | the imported network becomes the compressed one | invariant on the tags copied so far over the loops of the compressed graph and over the retries; the graph itself by simulation of C05 |
| C96 | the tags of an OpenStreetMap file | simulation of C29's importer, with an invariant over its abstract world: the tags of all known nodes in the first storage, of all vertices and roads in the second |
| C97 | where the tags of joined roads come from | one more clause in the invariant of C16 (each tag is traced back along the courses of the joined roads); that nothing is taken away by a walk over the model without preconditions |
| C98 | reservations of the index build | one lemma for any reservation that is retried with a doubled file; then filling by induction under the invariant that what is still to come fits |
| C99 | hashes agree with equalities | the table simulates a list of entries (permutation, each entry in its bucket, no two equal keys); each hash by induction over what is hashed |
| C100 | text of lines round-trips | scale a number to units of its twelfth digit, nearest integer; numbers of twelve digits are apart; tokens of the written text computed by induction over points and parts |
| C101 | printed numbers count the tables | the rows of a watched loop are a prefix; sums over rows; rows of the step-wise cache keep the length of the choices of their state |
| C102 | moved node table | the invariant of C30, and that the nodes are in order at each move; refuted otherwise |
| C103 | references to environments stay valid | the reserved capacity is never exceeded; induction over the parts |
| C104 | adaptive tolerance of the merge | the maximum is the least upper bound; then C38's classification of results and exceptions |
