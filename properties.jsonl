{"id": "C01", "title": "Every fine cell is put in exactly one coarse cell", "statement": "When agglomerate_one_level is called on a well-formed mesh graph, it returns normally and fc_to_cc gets exactly one coarse identifier for every fine cell; no cell is left out and no cell is ever put in two coarse cells.", "quantifier": "all well-formed graphs of any size, all accepted parameter combinations (cardinalities, seeds pool strategy, aspect ratio, neighbourhood type, look-ahead depth, singular threshold, correction on/off), all weights/volumes/centres, all hash iteration orders", "why_tests_cant": "Tests sample a few small meshes; the claim is about every graph, parameter combination and floating-point comparison outcome.", "anchors": ["include/CoMMA/CoMMA.h:agglomerate_one_level", "include/CoMMA/Agglomerator.h:Agglomerator_Isotropic::agglomerate_one_level", "include/CoMMA/Coarse_Cell_Container.h:Coarse_Cell_Container::create_cc"]}
{"id": "C02", "title": "Coarse identifiers are contiguous from zero", "statement": "After agglomerate_one_level the identifiers appearing in fc_to_cc are exactly 0..nc-1 for some nc: none is skipped and none is out of range, also after the correction step has removed coarse cells.", "quantifier": "all well-formed graphs and accepted parameters, with and without correction, every singular_card_thresh", "why_tests_cant": "Renumbering after correction depends on which coarse cells were removed; only a handful of removal patterns is exercised by tests.", "anchors": ["include/CoMMA/CoMMA.h:agglomerate_one_level", "include/CoMMA/Coarse_Cell_Container.h:Coarse_Cell_Container::create_cc", "include/CoMMA/Coarse_Cell_Container.h:Coarse_Cell_Container::correct"]}
{"id": "C03", "title": "Coarse cells are connected", "statement": "Every coarse cell returned by agglomerate_one_level is a connected set of fine cells in the input graph.", "quantifier": "all well-formed symmetric graphs, all accepted parameters, with and without correction", "why_tests_cant": "Connectivity must survive every growth step, every choice of candidate and every correction move on arbitrary graphs.", "anchors": ["include/CoMMA/CoMMA.h:agglomerate_one_level", "include/CoMMA/Agglomerator.h:Agglomerator_Biconnected::choose_optimal_cc_and_update_seeds_pool", "include/CoMMA/Coarse_Cell_Container.h:Coarse_Cell_Container::correct"]}
{"id": "C04", "title": "max_card bounds isotropic coarse cells", "statement": "With correction off, every coarse cell created by the isotropic algorithm contains at most max_card fine cells.", "quantifier": "all well-formed graphs and accepted parameters", "why_tests_cant": "The size chosen depends on the whole growth history; tests only look at a few meshes.", "anchors": ["include/CoMMA/CoMMA.h:agglomerate_one_level", "include/CoMMA/Agglomerator.h:Agglomerator_Biconnected::choose_optimal_cc_and_update_seeds_pool"]}
{"id": "C05", "title": "Coarse cells smaller than min_card only exist where nothing else was left", "statement": "With correction off, if an isotropic coarse cell has fewer than min_card fine cells then at its creation it was a whole connected component of the not-yet-agglomerated cells: all neighbours of its cells already belonged to earlier coarse cells.", "quantifier": "all well-formed graphs and accepted parameters", "why_tests_cant": "Needs reasoning about the neighbourhood search for every intermediate agglomeration state.", "anchors": ["include/CoMMA/Agglomerator.h:Agglomerator_Biconnected::choose_optimal_cc_and_update_seeds_pool", "include/CoMMA/Dual_Graph.h:Dual_Graph::compute_neighbourhood_of_cc"]}
{"id": "C06", "title": "Well-formed input never triggers undefined behaviour, failed assertions or exceptions", "statement": "On well-formed input accepted by the argument checks, agglomerate_one_level never reads outside a vector, never dereferences an empty container or end iterator, never fails an assertion and never throws.", "quantifier": "all well-formed inputs and accepted parameter combinations", "why_tests_cant": "Absence of out-of-bounds accesses over all graphs cannot be established by sampling.", "anchors": ["include/CoMMA/CoMMA.h:agglomerate_one_level", "include/CoMMA/Agglomerator.h:Agglomerator_Biconnected", "include/CoMMA/Agglomerator.h:Agglomerator_Iterative", "include/CoMMA/Coarse_Cell_Container.h:Coarse_Cell_Container", "include/CoMMA/Dual_Graph.h:Dual_Graph", "include/CoMMA/Neighbourhood.h", "include/CoMMA/ARComputer.h"]}
{"id": "C07", "title": "Agglomeration terminates", "statement": "agglomerate_one_level terminates on every well-formed input; the number of coarse cells created is at most the number of fine cells.", "quantifier": "all well-formed inputs", "why_tests_cant": "Non-termination needs an unbounded search over graphs and agglomeration histories.", "anchors": ["include/CoMMA/CoMMA.h:agglomerate_one_level", "include/CoMMA/Agglomerator.h:Agglomerator_Isotropic::agglomerate_one_level", "include/CoMMA/Dual_Graph.h:Dual_Graph::compute_neighbourhood_of_cc", "include/CoMMA/Agglomerator.h:Agglomerator_Anisotropic::build_anisotropic_lines"]}
{"id": "C08", "title": "Argument checking accepts and rejects exactly the documented arguments", "statement": "agglomerate_one_level throws invalid_argument exactly when the dimension is not 2 or 3, a cardinality is <= 1, min <= goal <= max fails, fc_choice_iter is not in 1..4, the CSR vectors have inconsistent sizes, provided anisotropic lines are inconsistent, singular_card_thresh <= 0, the seeds pool type is unknown or the aspect ratio is unknown; the first failing check in program order decides the message. The aspect ratio is checked last, after the initialisation of the seeds pool or the agglomeration of the lines: a failure of these comes first.", "quantifier": "all argument tuples, well-formed or not", "why_tests_cant": "The combination space of 25 arguments is unbounded.", "anchors": ["include/CoMMA/CoMMA.h:agglomerate_one_level"]}
{"id": "C09", "title": "Correction removes every singular coarse cell that can be removed", "statement": "After correction (singular_card_thresh = 1) an isotropic coarse cell made of one single fine cell remains only if that cell has no neighbour in any isotropic coarse cell.", "quantifier": "all well-formed graphs and accepted parameters with correction on", "why_tests_cant": "Depends on the order in which singular cells are treated on arbitrary graphs.", "anchors": ["include/CoMMA/Coarse_Cell_Container.h:Coarse_Cell_Container::correct", "include/CoMMA/Coarse_Cell_Container.h:Coarse_Cell_Container::select_best_cc_to_agglomerate"]}
{"id": "C10", "title": "Correction never touches anisotropic coarse cells", "statement": "The correction step neither adds cells to, removes cells from, nor renumbers a coarse cell coming from an anisotropic line.", "quantifier": "all container states reachable by agglomeration, every singular_card_thresh", "why_tests_cant": "Requires an invariant over all correction histories.", "anchors": ["include/CoMMA/Coarse_Cell_Container.h:Coarse_Cell_Container::correct", "include/CoMMA/Coarse_Cell_Container.h:Coarse_Cell_Container::select_best_cc_to_agglomerate_whole", "include/CoMMA/Coarse_Cell_Container.h:Coarse_Cell_Container::select_best_cc_to_agglomerate"]}
{"id": "C11", "title": "Anisotropic coarse cells are pairs or triples of consecutive line cells", "statement": "With anisotropy on, each line is cut into coarse cells of two consecutive cells, except that the last one has three when the line length is odd and odd_line_length is true; with odd_line_length false a left-over last cell stays isotropic.", "quantifier": "all lines of any length, every odd_line_length and max_cells_in_line without value", "why_tests_cant": "Line lengths are unbounded; the iterator arithmetic is delicate at the ends.", "anchors": ["include/CoMMA/Agglomerator.h:Agglomerator_Anisotropic::agglomerate_one_level"]}
{"id": "C12", "title": "max_cells_in_line never makes the line walk leave the line", "statement": "For every line and every positive max_cells_in_line, cutting the line only visits cells of the line, and no more than max_cells_in_line of them are agglomerated anisotropically.", "quantifier": "all lines, all positive limits, both settings of odd_line_length", "why_tests_cant": "The failing combination depends on the relation between limit parity and line length.", "anchors": ["include/CoMMA/Agglomerator.h:Agglomerator_Anisotropic::agglomerate_one_level"]}
{"id": "C13", "title": "Exported anisotropic lines are consistent with fc_to_cc", "statement": "The lines returned through agglomerationLines_Idx/agglomerationLines form a valid index structure (starts with 0, non-decreasing, last entry equal to the number of stored ids) and the stored ids are identifiers of coarse cells in the final fc_to_cc, each occurring once, still valid after correction.", "quantifier": "all well-formed inputs with anisotropy on", "why_tests_cant": "Relation between data exported before and after the correction step for every history.", "anchors": ["include/CoMMA/Agglomerator.h:Agglomerator_Anisotropic::export_anisotropic_lines", "include/CoMMA/CoMMA.h:agglomerate_one_level"]}
{"id": "C14", "title": "Built anisotropic lines are disjoint paths of compliant cells", "statement": "When lines are built by the library, each has at least two cells, consecutive cells are neighbours in the graph, no cell occurs twice in one or in two lines, and only cells declared compliant by the caller occur.", "quantifier": "all graphs, weights and thresholds", "why_tests_cant": "Greedy two-ended line growth over arbitrary weights.", "anchors": ["include/CoMMA/Agglomerator.h:Agglomerator_Anisotropic::build_anisotropic_lines", "include/CoMMA/Dual_Graph.h:Dual_Graph::tag_anisotropic_cells"]}
{"id": "C15", "title": "Neighbourhood search returns exactly the cells within k steps, with their distance", "statement": "The neighbourhood of a set of seeds returned by compute_neighbourhood_of_cc contains exactly the non-agglomerated cells reachable from a seed in 1..k steps through non-agglomerated cells, each with its exact distance; k is at least the requested order unless everything reachable is already included, and the search goes on beyond the requested order while fewer than max_card cells are known.", "quantifier": "all graphs, agglomeration states, seeds, orders", "why_tests_cant": "Breadth-first search correctness for every graph.", "anchors": ["include/CoMMA/Dual_Graph.h:Dual_Graph::compute_neighbourhood_of_cc"]}
{"id": "C16", "title": "Boundary-priority seed choice takes the most constrained cell", "statement": "With a BOUNDARY_PRIORITY pool, each seed handed to the isotropic algorithm is not agglomerated and no other non-agglomerated cell has more boundary faces; the pool reports no seed exactly when every cell is agglomerated.", "quantifier": "all pools and all histories of agglomerations and updates", "why_tests_cant": "Property of every history of queue updates.", "anchors": ["include/CoMMA/Seeds_Pool.h:Seeds_Pool_Boundary_Priority"]}
{"id": "C17", "title": "Neighbourhood-priority seed choice", "statement": "With a NEIGHBOURHOOD_PRIORITY pool each seed is not agglomerated, a seed is found whenever a non-agglomerated cell exists, and as long as the pool contains a non-agglomerated neighbour of existing coarse cells the seed is such a cell; when the pool is exhausted the seed is a cell with the highest number of boundary faces among those left.", "quantifier": "all pools and all histories", "why_tests_cant": "Property of every history of queue updates.", "anchors": ["include/CoMMA/Seeds_Pool.h:Seeds_Pool_Neighbourhood_Priority", "include/CoMMA/Seeds_Pool.h:Seeds_Pool::get_highest_n_bnd_yet_to_agglomerate"]}
{"id": "C18", "title": "One-point initialisation starts from an existing cell", "statement": "With a *_ONE_POINT_INIT pool the first seed is the cell with the highest boundary count and, among those, the highest priority weight, for any priority weights.", "quantifier": "all priority weights (any sign) and boundary counts", "why_tests_cant": "Depends on the values of user-supplied weights, including zero and negative ones.", "anchors": ["include/CoMMA/Seeds_Pool.h:SPOnePointInitializator"]}
{"id": "C19", "title": "Wall distance is the graph distance", "statement": "compute_neighbourhood_based_wall_distance gives each cell the length of the shortest path to a wall cell, and -1 exactly to cells from which no wall cell can be reached; any previous content of the output vector is irrelevant.", "quantifier": "all symmetric graphs and wall sets", "why_tests_cant": "BFS correctness on all graphs.", "anchors": ["include/CoMMA/Util.h:compute_neighbourhood_based_wall_distance"]}
{"id": "C20", "title": "The coarse graph has exactly the edges induced by the agglomeration", "statement": "build_coarse_graph returns a well-formed CSR graph without self loops or repeated neighbours in which two coarse cells are neighbours exactly when they contain neighbouring fine cells; if the fine graph is symmetric so is the coarse one.", "quantifier": "all fine graphs and all surjective fine-to-coarse maps", "why_tests_cant": "Arbitrary graphs and maps.", "anchors": ["include/CoMMA/Util.h:build_coarse_graph"]}
{"id": "C21", "title": "Coarse volumes are conserved", "statement": "build_coarse_graph gives every coarse cell the sum of the volumes of its fine cells, hence the total volume is conserved.", "quantifier": "all fine graphs, maps and volumes (exact arithmetic)", "why_tests_cant": "Arbitrary data.", "anchors": ["include/CoMMA/Util.h:build_coarse_graph"]}
{"id": "C22", "title": "Coarse face weights are sums of fine face weights", "statement": "build_coarse_graph gives the edge between two coarse cells the sum of the weights of the fine faces between them.", "quantifier": "all fine graphs, maps and weights (exact arithmetic)", "why_tests_cant": "With constant weights a wrong index is invisible; only a universally quantified statement exposes it.", "anchors": ["include/CoMMA/Util.h:build_coarse_graph"]}
{"id": "C23", "title": "Coarse centres are volume-weighted averages", "statement": "build_coarse_graph gives every coarse cell the volume-weighted average of the centres of its fine cells, so a coarse centre lies in the convex hull of the fine ones.", "quantifier": "all volumes and centres (exact arithmetic)", "why_tests_cant": "Unit volumes hide the error.", "anchors": ["include/CoMMA/Util.h:build_coarse_graph"]}
{"id": "C24", "title": "Coarse priorities and boundary counts are maxima over fine cells", "statement": "build_coarse_graph gives every coarse cell the maximum priority weight and the maximum number of boundary faces of its fine cells.", "quantifier": "all priority weights and boundary counts", "why_tests_cant": "Positive priorities hide the wrong neutral element.", "anchors": ["include/CoMMA/Util.h:build_coarse_graph"]}
{"id": "C25", "title": "filter_cells_by_n_edges keeps exactly the requested cells", "statement": "filter_cells_by_n_edges returns, in increasing order, exactly the cells whose number of edges is one of the allowed positive values.", "quantifier": "all edge counts and allowed sets", "why_tests_cant": "Arbitrary sets including non-positive values.", "anchors": ["include/CoMMA/Util.h:filter_cells_by_n_edges"]}
{"id": "C26", "title": "The result does not depend on hash iteration order", "statement": "The output of agglomerate_one_level is the same for every iteration order of the unordered containers it uses, hence reproducible across standard libraries.", "quantifier": "all iteration orders of unordered containers, all inputs", "why_tests_cant": "A given build exhibits only one iteration order.", "anchors": ["include/CoMMA/CoMMA.h:agglomerate_one_level", "include/CoMMA/Dual_Graph.h:Dual_Graph", "include/CoMMA/Coarse_Cell_Container.h:Coarse_Cell_Container", "include/CoMMA/Agglomerator.h:Agglomerator_Biconnected"]}
{"id": "C27", "title": "Incremental compactness equals its definition", "statement": "The compactness degree attributed to a coarse cell while it grows equals the minimum over its cells of the number of neighbours inside the coarse cell, as computed from scratch by compute_min_fc_compactness_inside_a_cc.", "quantifier": "all symmetric graphs without self loops, all growth histories", "why_tests_cant": "Invariant of every growth history.", "anchors": ["include/CoMMA/Agglomerator.h:Agglomerator_Biconnected::choose_optimal_cc_and_update_seeds_pool", "include/CoMMA/Dual_Graph.h:Graph::compute_min_fc_compactness_inside_a_cc"]}
{"id": "C28", "title": "Incrementally updated geometric features equal their definitions", "statement": "The measure, diameter, minimal edge, internal and external face weights and sum of centres maintained while adding cells one at a time equal the values computed from scratch for the resulting set, whatever the order of addition.", "quantifier": "all graphs, coordinates, volumes and all addition orders (exact arithmetic)", "why_tests_cant": "Invariant over all addition sequences.", "anchors": ["include/CoMMA/ARComputer.h:update_basic_features", "include/CoMMA/ARComputer.h:update_approximated_geometric_features"]}
{"id": "C29", "title": "Candidates for growth are exactly the free cells adjacent to the coarse cell", "statement": "With the EXTENDED neighbourhood the candidates offered at each growth step are exactly the eligible cells adjacent to the coarse cell and not in it, those that become candidates at a step being offered after the older ones and ordered by decreasing priority; with PURE_FRONT they are a subset of these, ordered by decreasing priority and non-empty whenever there is one. The subset is: all of them as long as the coarse cell has at most as many cells as there are dimensions; afterwards those next to the first cell having any, the cells of the coarse cell being considered in the order last added, first added, last but one, second, and so on.", "quantifier": "all graphs, weights and growth histories", "why_tests_cant": "Invariant over all growth histories.", "anchors": ["include/CoMMA/Neighbourhood.h:Neighbourhood_Extended", "include/CoMMA/Neighbourhood.h:Neighbourhood_Pure_Front"]}
{"id": "C30", "title": "check_connectivity decides connectivity", "statement": "Graph::check_connectivity returns true exactly for connected graphs, for any (non-empty) graph.", "quantifier": "all graphs", "why_tests_cant": "All graphs, including ones without any edge.", "anchors": ["include/CoMMA/Dual_Graph.h:Graph::check_connectivity", "include/CoMMA/Dual_Graph.h:Graph::DFS"]}
{"id": "C31", "title": "Subgraph insertion and removal keep the subgraph equal to the induced subgraph", "statement": "After Subgraph::insert_node / remove_node the CSR structure of the subgraph is that of the graph induced by the new set of cells.", "quantifier": "all subgraphs and cells", "why_tests_cant": "Offset errors only show on particular shapes.", "anchors": ["include/CoMMA/Dual_Graph.h:Subgraph::insert_node", "include/CoMMA/Dual_Graph.h:Subgraph::remove_node"]}
{"id": "C32", "title": "Several agglomeration levels can be chained", "statement": "Building the coarse graph from the result of agglomerate_one_level gives again a well-formed input, and the exported anisotropic lines are valid input lines for it, so that any number of levels can be chained without undefined behaviour or exceptions.", "quantifier": "all well-formed fine levels, any number of levels", "why_tests_cant": "Induction over the number of levels.", "anchors": ["include/CoMMA/CoMMA.h:agglomerate_one_level", "include/CoMMA/Util.h:build_coarse_graph", "include/CoMMA/Agglomerator.h:Agglomerator_Anisotropic::export_anisotropic_lines"]}
{"id": "C33", "title": "A rejected call leaves the output arguments unchanged", "statement": "If agglomerate_one_level throws invalid_argument then fc_to_cc, agglomerationLines_Idx and agglomerationLines are unchanged.", "quantifier": "all argument tuples rejected by the checks", "why_tests_cant": "Combination of late checks and in/out arguments.", "anchors": ["include/CoMMA/CoMMA.h:agglomerate_one_level", "include/CoMMA/Agglomerator.h:Agglomerator_Isotropic"]}
{"id": "C34", "title": "Boundary counts are clipped to the dimension", "statement": "Boundary counts larger than the dimension act exactly as the dimension: two calls differing only in such entries give the same result.", "quantifier": "all inputs", "why_tests_cant": "All vectors of boundary counts.", "anchors": ["include/CoMMA/CoMMA.h:agglomerate_one_level"]}
{"id": "C35", "title": "singular_card_thresh is clipped below min_card", "statement": "Any singular_card_thresh >= min_card acts exactly as min_card - 1.", "quantifier": "all inputs", "why_tests_cant": "All integer values.", "anchors": ["include/CoMMA/CoMMA.h:agglomerate_one_level"]}
{"id": "C36", "title": "The reported number of coarse cells matches the agglomeration", "statement": "Coarse_Cell_Container::get_nb_of_cc equals the number of distinct coarse cells at any time, also after correction.", "quantifier": "all reachable container states", "why_tests_cant": "All histories.", "anchors": ["include/CoMMA/Coarse_Cell_Container.h:Coarse_Cell_Container::get_nb_of_cc", "include/CoMMA/Coarse_Cell_Container.h:Coarse_Cell_Container::correct"]}
{"id": "C37", "title": "Ordering predicates for priority sets are strict total orders", "statement": "CustomPairGreater/CustomPairLess on (index, weight) pairs are strict weak orders whose equivalence is equality of index and equivalence of weights, so ordered sets of pairs keep one entry per cell and are sorted by decreasing weight then increasing index.", "quantifier": "all weights without NaN", "why_tests_cant": "Order laws quantify over triples of values.", "anchors": ["include/CoMMA/Util.h:CustomPairGreaterFunctor", "include/CoMMA/Util.h:CustomPairLessFunctor"]}
{"id": "C38", "title": "The next cell added shares a face with the coarse cell and has the best aspect ratio among the best connected candidates", "statement": "compute_best_fc_to_add returns a candidate which shares at least one face with the coarse cell under construction; no candidate is preferred to it by the documented criteria (order of neighbourhood, shared faces, aspect ratio).", "quantifier": "all graphs, features and candidate lists", "why_tests_cant": "Selection loop over arbitrary candidate lists and real-valued aspect ratios.", "anchors": ["include/CoMMA/Agglomerator.h:Agglomerator_Biconnected::compute_best_fc_to_add", "include/CoMMA/Agglomerator.h:Agglomerator_Iterative::compute_best_fc_to_add"]}
{"id": "C39", "title": "The aspect ratio of a candidate is the documented one", "statement": "When a fine cell is considered for addition to the coarse cell being grown, the aspect ratio computed for it is the documented function (CoMMADefs.h, ARComputer.h) of the set of cells obtained by adding it: it depends only on that set and not on the order in which the cells were added.", "quantifier": "all meshes with symmetric face weights, all kinds of aspect ratio, all sequences of additions (exact arithmetic)", "why_tests_cant": "Ten formulas, over all shapes and all addition sequences; a wrong formula still yields valid agglomerations.", "anchors": ["include/CoMMA/CoMMADefs.h:CoMMAAspectRatioT", "include/CoMMA/ARComputer.h:compute_and_update_features"]}
{"id": "C40", "title": "An isotropic coarse cell is grown from its seed and cut at the best size", "statement": "Every isotropic coarse cell is grown from the seed taken from the pool: the free cells around the seed are collected layer by layer; if there are fewer than the goal cardinality they all form the coarse cell; otherwise the best candidate is added again and again, and among the sizes between the minimum and the maximum cardinality the one kept has the highest compactness, among those the fewest external faces, and among those it is the goal cardinality or, failing that, the largest.", "quantifier": "all well-formed calls (good_call) on simple meshes without correction, all isotropic coarse cells, all hash orders", "why_tests_cant": "The choice depends on the whole history of the call; a wrong tie-break, distance or size still yields a valid agglomeration, so tests on a few meshes with recorded results cannot tell.", "anchors": ["include/CoMMA/Agglomerator.h:choose_optimal_cc_and_update_seeds_pool", "include/CoMMA/Agglomerator.h:Agglomerator_Isotropic::agglomerate_one_level"]}
{"id": "C41", "title": "The correction moves the cells of small coarse cells by compactness, shared faces, size and number", "statement": "Compare a call with correction with the same call without it. The isotropic coarse cells whose size is at most the singular threshold are treated by increasing number. If such a coarse cell has several cells and some isotropic coarse cell next to it becomes more compact with all of them, they all join the smallest such one (lowest number in case of a tie). Otherwise its cells are treated one by one: each joins an isotropic coarse cell which was next to it, one which becomes more compact if there is one, then the one sharing the most faces with the cell, then the smallest, then the one with the lowest number; a cell next to none stays. Sizes and compactness degrees are those after the previous moves. At the end the coarse cells which lost a cell are removed and the others are renumbered without gap in the same order; a cell which stayed in a removed coarse cell keeps its old number. Nothing else changes and the exported lines are the same.", "quantifier": "all well-formed calls (good_call) with correction on graphs without repeated neighbours or loops, all thresholds, with or without lines, all hash orders, all number systems", "why_tests_cant": "The choice depends on the sizes and compactness degrees after earlier moves, on ties and on the order of a hash map; a wrong comparison gives another partition which passes every structural check.", "anchors": ["include/CoMMA/Coarse_Cell_Container.h:Coarse_Cell_Container::select_best_cc_to_agglomerate_whole", "include/CoMMA/Coarse_Cell_Container.h:Coarse_Cell_Container::select_best_cc_to_agglomerate", "include/CoMMA/Coarse_Cell_Container.h:Coarse_Cell_Container::correct"]}
{"id": "C42", "title": "Lines are agglomerated from the end closest to the boundary", "statement": "Each anisotropic line is agglomerated from the end which has more boundary faces; if they have as many, from the end with the higher priority weight, then from the one with the lower index. Its coarse cells are exported in the order in which they follow each other from that end.", "quantifier": "all well-formed calls (good_call), lines given or built, all limits on the length of lines", "why_tests_cant": "A wrong comparison only shows on lines whose two ends differ in the right criterion, and the result is still a valid agglomeration.", "anchors": ["include/CoMMA/Agglomerator.h:Agglomerator_Anisotropic::agglomerate_one_level"]}
{"id": "C43", "title": "The cells tagged as anisotropic are exactly those over the threshold", "statement": "tag_anisotropic_cells tags exactly the compliant cells for which the ratio of the largest to the smallest face weight (its square root in 3D) is at least the threshold, all the compliant cells if the threshold is negative; when boundary layers are preserved (2 or 3), only cells with 4 (resp. 6) faces, boundary ones included. They are listed by decreasing priority. The highest coupling of each compliant cell is recorded, and for the coupling by distance the couplings are the inverses of the squared distances of the centres.", "quantifier": "all well-formed meshes, thresholds, couplings and values of preserving (totally ordered numbers)", "why_tests_cant": "Depends on all face weights and on comparisons at the threshold; a missing break statement in one case is only seen with meshes mixing shapes of cells.", "anchors": ["include/CoMMA/Dual_Graph.h:Dual_Graph::tag_anisotropic_cells"]}
{"id": "C44", "title": "Lines are built by following the strongest coupling in both directions from each seed", "statement": "The lines built are the ones given by the following rule, which leaves no choice. Anisotropic cells are taken as seeds by decreasing priority, if they are not in a line yet. From the seed on, the line is continued by the most strongly coupled free anisotropic neighbour among those above 90% of the highest coupling of its last cell (lowest index if equal); if the direction is forced, by the best aligned one after the first step, and any aligned neighbour if no strongly coupled one is aligned. When it cannot be continued, it is continued on the other side of the seed, in the direction opposite to the first step. A line of a single cell is dropped and its cell is not used again.", "quantifier": "all well-formed calls (good_call) which build lines, both couplings, direction forced or not, all hash orders (totally ordered numbers)", "why_tests_cant": "Geometric tests and ties along arbitrary meshes; a wrong candidate still yields disjoint paths, which is all that invariant tests can check.", "anchors": ["include/CoMMA/Agglomerator.h:Agglomerator_Anisotropic::build_anisotropic_lines"]}
{"id": "C45", "title": "Coarse cells follow one another as the queues of seeds and the growth rule say, from the first to the last", "statement": "Without correction, the numbers of the isotropic coarse cells follow those of the anisotropic ones, in the order in which they are built by the following rule. The queues of seeds (one per number of boundary faces) start with the free neighbours of the agglomerated cells of the lines, in the order in which the lines are walked along, or, if there is none, with all the cells with the most boundary faces by decreasing priority and increasing index (or just the first of them for the one-point orders). Until no cell is free: a seed is taken from the queues (what comes before it in its queue is dropped, the queues above which hold no free cell are emptied, and if the queue in use has none, the free cells of the next level are used); the coarse cell grown from it (C40) gets the next number; its free neighbours are appended to the queues, sorted by distance from the seed, then by decreasing number of boundary faces, decreasing priority and increasing index, each in the queue of its number of boundary faces or, with neighbourhood priority, never above the queue in use.", "quantifier": "all well-formed calls (good_call) without correction on graphs without repeated neighbours or loops, all four orders, with or without lines, all hash orders, all number systems with a strict weak order", "why_tests_cant": "The state of the queues after many coarse cells decides which seed is taken next; a wrong tie-break or a cell dropped from a queue shows up only as a different but valid-looking partition on some meshes.", "anchors": ["include/CoMMA/Seeds_Pool.h:Seeds_Pool_Boundary_Priority", "include/CoMMA/Seeds_Pool.h:Seeds_Pool_Neighbourhood_Priority", "include/CoMMA/Agglomerator.h:Agglomerator_Isotropic::agglomerate_one_level", "include/CoMMA/Agglomerator.h:Agglomerator_Anisotropic::update_seeds_pool"]}
{"id": "C46", "title": "A corrected cell joins the neighbouring coarse cell which shares the most faces with it", "statement": "The comment on select_best_cc_to_agglomerate says that a cell being corrected prefers the neighbouring coarse cell which shares the most faces with it and, otherwise, the one with the smallest cardinality. The code asks first whether the coarse cell becomes more compact, so a coarse cell sharing fewer faces may be chosen.", "quantifier": "all well-formed calls (good_call) with correction on graphs without repeated neighbours or loops", "why_tests_cant": "A coarse cell must share more faces than another and yet not gain compactness while the other does; no mesh of the test suite has this.", "anchors": ["include/CoMMA/Coarse_Cell_Container.h:Coarse_Cell_Container::select_best_cc_to_agglomerate"]}
{"id": "C47", "title": "All the ways of calling the library make the same call", "statement": "The overload of agglomerate_one_level which takes GraphArgs, AgglomerationArgs and AnisotropicArgs makes the call whose arguments have the same meaning; arguments left out, in the function, in the constructors and in the Python module, have the documented default values; the Python function returns the three output vectors of the C++ call (whatever fc_to_cc held) or raises the same exception, build_coarse_graph returns its seven vectors in the same order, and the Python functions for wall distances and for filtering cells return what the C++ ones do.", "quantifier": "all arguments, well-formed or not, all hash orders, all number systems", "why_tests_cant": "Twenty-seven arguments of few types are forwarded by position: two swapped booleans or cardinalities compile, and tests which use equal values for both do not see it.", "anchors": ["include/CoMMA/Args.h:GraphArgs", "include/CoMMA/Args.h:AgglomerationArgs", "include/CoMMA/Args.h:AnisotropicArgs", "include/CoMMA/CoMMA.h:agglomerate_one_level", "src/CoMMA.cpp:PYBIND11_MODULE"]}
{"id": "C48", "title": "The deprecated queue is first in first out and Priority_Pair is ordered as documented", "statement": "After any sequence of pushes and pops in which nothing is popped from an empty queue, the elements popped are the first pushed, in the same order, and the others remain; top is what pop would return, and both are -1 for an empty queue. Priority_Pair's operator< holds if and only if the first element is greater, or the first elements are equal and the second is less; it is a strict total order if the comparisons of the elements are, and operator== is equality.", "quantifier": "all sequences of operations, all element types, all comparisons", "why_tests_cant": "The test suite has no tests of the queue beyond one sequence; transitivity and totality concern all triples and pairs.", "anchors": ["include/CoMMA/deprecated/Queue.h:Queue::pop", "include/CoMMA/deprecated/Queue.h:Queue::top", "include/CoMMA/deprecated/Priority_Pair.h:operator<"]}
{"id": "C49", "title": "The two ways of looking up a Bimap are inverse of each other", "statement": "After any sequence of insert, update_nodeA, update_nodeB and erase_B, get_B finds the partner of each first key and get_A that of each second key, and they are inverse; lung is the number of pairs and empty says whether there is none. True as long as no key is given to two pairs; false otherwise (the code does not look whether a key is in use).", "quantifier": "all sequences of operations, all key types", "why_tests_cant": "The pointers between the nodes of the two maps must survive changes of keys; only sequences in which a key is in use show the failures, and then the pointer read is dangling, which a test may not notice.", "anchors": ["include/CoMMA/deprecated/Bimap.h:Bimap::insert", "include/CoMMA/deprecated/Bimap.h:Bimap::update_nodeA", "include/CoMMA/deprecated/Bimap.h:Bimap::update_nodeB", "include/CoMMA/deprecated/Bimap.h:Bimap::erase_B"]}
{"id": "C50", "title": "The deprecated tree stays a tree under insertions and deletions", "statement": "After any sequence of insertSon and deleteNode the pointers to father, first son, left and right neighbours and the numbers of sons describe the tree given by the operations: a new son comes last, and a deletion removes the first son of the root with the index. True of insertions and of deletions of the last of several sons; every other deletion either has undefined behaviour (only son, first of two, last but one) or leaves wrong pointers, because the node to delete is passed as a reference to the pointer which is being overwritten.", "quantifier": "all sequences of operations, all indices (repeated or not) and volumes", "why_tests_cant": "The test of the tree is disabled in the repository; wrong left pointers show only at a later deletion.", "anchors": ["include/CoMMA/deprecated/Tree.h:Tree::insertSon", "include/CoMMA/deprecated/Tree.h:Tree::delete_node", "include/CoMMA/deprecated/Tree.h:Tree::search"]}
{"id": "C51", "title": "The rules for seeds, growth and correction determine the result", "statement": "The rules of C45 (queues, seeds, growth, additions to the queues) leave no choice: they determine the sequence of coarse cells, and among the vectors with the anisotropic coarse cells of the result, the result of a call without correction is the only one which follows them. If only single cells are corrected, the rules of C41 also determine the corrected result. So the result depends on nothing but the arguments, in particular not on the order of hash tables or on addresses. For a higher threshold the rules of C41 do not fix the order of the cells of one coarse cell, and several results may follow them.", "quantifier": "all well-formed calls (good_call) on graphs without repeated neighbours or loops, all candidate results, all hash orders, all number systems with a strict weak order", "why_tests_cant": "A test compares with the one result of one platform; it cannot show that no other result would satisfy the documented rules.", "anchors": ["include/CoMMA/Agglomerator.h:Agglomerator_Isotropic::agglomerate_one_level", "include/CoMMA/Seeds_Pool.h:Seeds_Pool_Boundary_Priority", "include/CoMMA/Coarse_Cell_Container.h:Coarse_Cell_Container::correct"]}
{"id": "C52", "title": "Priorities matter only by their order", "statement": "Two vectors of priority weights which order the cells in the same way (same comparisons between any two cells) give the same outcome and the same outputs, whatever the other arguments, errors included. With the one-point seeds pools the weights must in addition compare in the same way with the smallest positive weight; otherwise the outcome may change.", "quantifier": "all calls (well-formed or not), all pairs of priority vectors, all hash orders, all number systems", "why_tests_cant": "Tests run a few vectors of weights; the statement compares the runs for all pairs of vectors.", "anchors": ["include/CoMMA/Seeds_Pool.h:Seeds_Pool", "include/CoMMA/Neighbourhood.h:Neighbourhood_Pure_Front", "include/CoMMA/Util.h:CustomPairGreaterFunctor", "include/CoMMA/Agglomerator.h:Agglomerator_Anisotropic"]}
{"id": "C53", "title": "Arguments which do not matter", "statement": "Numbers of boundary faces above the dimension count as the dimension. Without anisotropy the anisotropic arguments do not matter and the vectors of lines are not touched. If lines are given, the compliant cells, the threshold, the coupling and the imposed direction do not matter. Without correction the threshold of the correction does not matter; thresholds which reach the minimal cardinality are equivalent. All neighbourhood codes but 0 are equivalent, and so are all coupling codes but 1. The previous contents of fc_to_cc do not matter.", "quantifier": "all calls (well-formed or not), all values of the arguments concerned, all hash orders, all number systems", "why_tests_cant": "Independence from an argument is a statement about all its values and all calls.", "anchors": ["include/CoMMA/CoMMA.h:agglomerate_one_level", "include/CoMMA/Agglomerator.h:Agglomerator_Anisotropic", "include/CoMMA/Coarse_Cell_Container.h:Coarse_Cell_Container"]}
{"id": "C54", "title": "No integer overflow", "statement": "Let every cell have at most D neighbours with D*D at most 2^31-1, let there be at most 2^31-4 cells, and let m*(2D+4) be at most 2^31-1, where m is the smaller of the maximal cardinality and the number of cells. Then, for valid data, no arithmetic operation on CoMMAIntType in the isotropic agglomeration and the correction leaves the 32-bit range: the program with checked 32-bit arithmetic succeeds with the outputs of the one with unbounded integers. For all other calls the two agree or the checked one meets an overflow. Negative numbers of boundary faces are not rejected and can cause an overflow on a mesh of two cells. In Util.h the wall distance overflows exactly if a cell is at the greatest representable distance, never with at most that many cells, and the filter by number of faces counts right if these numbers fit in 32 bits.", "quantifier": "all well-formed meshes within the bounds, all parameters, all hash orders, all number systems; for the comparison all calls", "why_tests_cant": "The bounds concern meshes of up to two thousand million cells, and an overflow is undefined behaviour which a test may not notice.", "anchors": ["include/CoMMA/Agglomerator.h:choose_optimal_cc_and_update_seeds_pool", "include/CoMMA/ARComputer.h:update_basic_features", "include/CoMMA/Coarse_Cell_Container.h:correct", "include/CoMMA/Dual_Graph.h:compute_neighbourhood_of_cc", "include/CoMMA/Util.h:compute_neighbourhood_based_wall_distance", "include/CoMMA/Util.h:filter_cells_by_n_edges"]}
{"id": "C55", "title": "The place of the mesh does not matter", "statement": "For every aspect ratio, moving all the cell centres by one vector does not change the coarse cells nor the lines; without lines to be built neither does a rotation or a reflection. Aspect ratios which do not look at the centres give the same result for all centres.", "quantifier": "all calls (well-formed or not), all vectors, all hash orders, all number systems in which subtraction is exact", "why_tests_cant": "A test compares finitely many pairs of meshes; the counterexample for the barycentre aspect ratios needs particular volumes.", "anchors": ["include/CoMMA/ARComputer.h:update_basic_features", "include/CoMMA/Agglomerator.h:build_anisotropic_lines", "include/CoMMA/Util.h:squared_euclidean_distance"]}
{"id": "C56", "title": "Units do not matter", "statement": "Multiplying all weights of the faces by one positive number, all volumes by another and all coordinates by a third does not change the coarse cells nor the lines, as long as the numbers stay in the range of the number type, for every aspect ratio.", "quantifier": "all good calls, all positive factors, all hash orders, all number systems with exact operations", "why_tests_cant": "Factors and meshes are unbounded; a comparison of quantities of different dimension shows only for particular ratios.", "anchors": ["include/CoMMA/ARComputer.h:compute_and_update_features", "include/CoMMA/Agglomerator.h:choose_optimal_cc_and_update_seeds_pool", "include/CoMMA/Dual_Graph.h:tag_anisotropic_cells"]}
{"id": "C57", "title": "The outputs of a call are the ones of a complete description", "statement": "A call with acceptable arguments and a well-formed mesh ends normally and its three outputs are those of a description of the agglomeration which is complete: the lines, how they are walked, cut and numbered, the seeds, the candidates in their order, the look-ahead, aspect ratio by aspect ratio, the size kept, and the correction. At most one result fits the description, except when the correction may dissolve coarse cells of more than one fine cell.", "quantifier": "all good calls on meshes with symmetric couplings, all hash orders, all number systems with exact addition and a total order", "why_tests_cant": "A test compares the outputs with expected ones for finitely many calls; that the description determines the result, and that the program follows it on every mesh, is about all of them.", "anchors": ["include/CoMMA/CoMMA.h:agglomerate_one_level", "include/CoMMA/Agglomerator.h:agglomerate_one_level", "include/CoMMA/Agglomerator.h:choose_optimal_cc_and_update_seeds_pool", "include/CoMMA/Agglomerator.h:Agglomerator_Iterative::compute_best_fc_to_add", "include/CoMMA/ARComputer.h:compute_and_update_features", "include/CoMMA/Neighbourhood.h:update_it", "include/CoMMA/Seeds_Pool.h:choose_new_seed"]}
{"id": "C58", "title": "The order of the faces of a cell does not matter", "statement": "Listing the faces of each cell in another order, together with their weights, does not change the coarse cells nor the lines.", "quantifier": "all good calls on meshes with symmetric couplings, all rearrangements of the entries within the rows, all hash orders, all number systems with exact addition and a total order", "why_tests_cant": "A test runs a few meshes with one listing each; the number of listings is a product of factorials over all cells of any mesh.", "anchors": ["include/CoMMA/Dual_Graph.h:get_neighbours", "include/CoMMA/Agglomerator.h:choose_optimal_cc_and_update_seeds_pool", "include/CoMMA/Neighbourhood.h:update", "include/CoMMA/Seeds_Pool.h:update"]}
{"id": "C59", "title": "Double precision", "statement": "With weights, volumes and centres in double precision, including infinities, signed zeros and NaN, a call made as documented ends normally and assigns every cell. If at most single cells are corrected, coarse cells are numbered without gaps and connected, and the outputs do not depend on the iteration order of unordered containers. The only conditions on numbers are: priorities are not NaN (and at least the smallest positive normal number for one-point initialisation), and the threshold for anisotropy has no minus sign when lines are built.", "quantifier": "all meshes, all binary64 data, all orders of summation of std::reduce, all hash orders", "why_tests_cant": "Rounding, overflow to infinity, NaN and signed zeros appear for particular data only; a test uses a few benign numbers.", "anchors": ["include/CoMMA/CoMMA.h:agglomerate_one_level", "include/CoMMA/ARComputer.h:update_approximated_geometric_features", "include/CoMMA/Util.h:squared_euclidean_distance", "include/CoMMA/Dual_Graph.h:tag_anisotropic_cells"]}
{"id": "C60", "title": "The numbers of the cells do not matter", "statement": "Numbering the cells otherwise, their data being carried along, leads to the same coarse cells with the same numbers, provided that cells of equal priority keep their relative order.", "quantifier": "all good calls, with or without lines, on meshes with symmetric couplings, all renumberings of the cells, all hash orders, all number systems with exact addition and a total order", "why_tests_cant": "A mesh of n cells has n! numberings; tests use one numbering per mesh.", "anchors": ["include/CoMMA/Seeds_Pool.h:choose_new_seed", "include/CoMMA/Seeds_Pool.h:get_highest_n_bnd_yet_to_agglomerate", "include/CoMMA/Util.h:CustomPairLessFunctor", "include/CoMMA/Agglomerator.h:choose_optimal_cc_and_update_seeds_pool"]}
{"id": "C61", "title": "The number of coarse cells", "statement": "A level has at most half as many coarse cells as cells, and at least as many as the maximal cardinal requires. After k levels of a connected mesh at most n / 2^k cells are left, or one.", "quantifier": "all meshes, all hash orders, all number systems, any number of levels", "why_tests_cant": "A bound on the number of coarse cells holds for a test mesh by its shape; only a proof covers all shapes, in particular stars and combs in which most cells have one neighbour.", "anchors": ["include/CoMMA/Coarse_Cell_Container.h:correct", "include/CoMMA/Agglomerator.h:agglomerate_one_level", "include/CoMMA/Util.h:build_coarse_graph", "include/CoMMA/CoMMA.h:agglomerate_one_level"]}
{"id": "C62", "title": "Lines in double precision", "statement": "With weights, volumes and centres in double precision, the cells tagged as anisotropic are exactly the compliant ones over the threshold, and the lines built are those of the documented rule, which allows one result only; quotients, distances and products are rounded. The conditions on numbers are: no face weight is a NaN or a negative zero, centres are finite if the coupling is by distance, and the threshold has no minus sign.", "quantifier": "all meshes, all binary64 data with the conditions, all orders of summation of std::reduce, all hash orders", "why_tests_cant": "Ties, infinities and signed zeros decide which cell a line takes; they appear for particular weights only, and a test has one fixed set of weights.", "anchors": ["include/CoMMA/Dual_Graph.h:tag_anisotropic_cells", "include/CoMMA/Agglomerator.h:build_anisotropic_lines", "include/CoMMA/CoMMA.h:agglomerate_one_level"]}
{"id": "C63", "title": "Pieces of a mesh are agglomerated independently", "statement": "If no face links a set of cells to the rest of the mesh, the call for the whole mesh cuts this set into the same coarse cells as a call for the set alone, in the same order, and no coarse cell has cells of both the set and the rest. The number of coarse cells of a mesh made of two such sets is the sum of their numbers of coarse cells. This requires that cells of equal priority keep their relative order; it holds for the default seeds pool and is false for the others. It is false if coarse cells of several cells are corrected.", "quantifier": "all meshes, all pieces of them, all injective numberings of the piece that keep ties, all options, without lines or with lines (given or built; then the faces of a cell are listed in the same order, and for built lines neighbours keep their order), with no correction or a correction of single cells, all hash orders", "why_tests_cant": "It compares two calls for meshes of different sizes and any number of components; the queues of the whole mesh mix the cells of all the pieces, so a leak between them shows for particular interleavings of seeds only.", "anchors": ["include/CoMMA/Agglomerator.h:agglomerate_one_level", "include/CoMMA/Seeds_Pool.h:choose_new_seed", "include/CoMMA/Coarse_Cell_Container.h:Coarse_Cell_Container::correct", "include/CoMMA/CoMMA.h:agglomerate_one_level"]}
{"id": "C64", "title": "Double precision numbers", "statement": "In double precision the numbers are compared by value; the literals 0.90, 0.9396926207859084 and 1e-12 are the closest representable numbers; the starting values max() and min() are the greatest number and the smallest positive normal one; counts below 2^53 are converted without error; sums, differences, products and quotients are the exact results rounded to nearest, ties to even, and become infinite only from 2^1024 - 2^970 on; square roots are rounded to nearest, those of negative numbers are NaN; comparisons with a NaN are false.", "quantifier": "all binary64 numbers, all integers below 2^53", "why_tests_cant": "The values at which rounding, overflow and subnormal numbers matter cannot be enumerated: there are 2^64 numbers and 2^128 pairs.", "anchors": ["src/CoMMA.cpp:WeightType", "include/CoMMA/Agglomerator.h:build_anisotropic_lines", "include/CoMMA/Util.h:deviate_thresh", "include/CoMMA/Agglomerator.h:compute_best_fc_to_add"]}
{"id": "C65", "title": "Iterators while coarse cells are renumbered", "statement": "The correction of small coarse cells never uses an iterator which the C++ standard declares invalid: after nodes are extracted from the map of coarse cells and inserted again with their new number, the loop does not touch the iterators of the extracted nodes.", "quantifier": "all calls made as documented, all weights, all hash orders", "why_tests_cant": "Implementations in use keep such iterators working, so tests pass; whether the behaviour is defined depends on which coarse cells are removed.", "anchors": ["include/CoMMA/Coarse_Cell_Container.h:correct", "include/CoMMA/Agglomerator.h:agglomerate_one_level"]}
{"id": "C66", "title": "Correction leaves no cell behind", "statement": "Whatever the threshold for small coarse cells, the correction moves all cells of a coarse cell it removes: no cell keeps the number of a removed coarse cell, the numbers after the correction have no gaps and every coarse cell is connected.", "quantifier": "all calls made as documented with correction, all thresholds, all hash orders", "why_tests_cant": "It depends on which cells of a small coarse cell touch which other coarse cells; the tests of the repository use few meshes and thresholds.", "anchors": ["include/CoMMA/Coarse_Cell_Container.h:correct", "include/CoMMA/Coarse_Cell_Container.h:select_best_cc_to_agglomerate_whole"]}
{"id": "C67", "title": "Even regular grids are cut into blocks", "statement": "On a regular grid of quadrangles or hexahedra with an even number of cells in every direction, with maximal cardinality 4 in 2-D or 8 in 3-D (in 3-D with the plain neighbourhood and without look-ahead), the isotropic coarse cells are exactly the 2x2 (2x2x2) blocks of the grid, whatever the numbering of the cells, the priorities, the weights, the volumes and the hash order.", "quantifier": "all regular grids with even sizes, all numberings, priorities, volumes, centres, weights, orders of neighbourhood, minimal and goal cardinalities, arithmetics and hash orders", "why_tests_cant": "The README and the paper only show pictures of single grids; a test fixes one size, one numbering and one queue order, while the result rests on the queue never starting a cell in the middle of a block.", "anchors": ["include/CoMMA/Agglomerator.h:choose_optimal_cc_and_update_seeds_pool", "include/CoMMA/Seeds_Pool.h:choose_new_seed", "README.md:21"]}
{"id": "C68", "title": "Regular grids with any neighbourhood and look-ahead", "statement": "The blocks of C67 are also found with the pure front advancing neighbourhood and with several iterations of look-ahead, in 2-D and in 3-D.", "quantifier": "all regular grids with even sizes in 2-D and 3-D, both neighbourhoods, all numbers of iterations", "why_tests_cant": "A deviation needs particular sizes, an aspect ratio and a number of iterations together; tests of the repository only use 2-D grids of one size with these options.", "anchors": ["include/CoMMA/Agglomerator.h:choose_optimal_cc_and_update_seeds_pool", "include/CoMMA/Neighbourhood.h:Neighbourhood_Pure_Front"]}
{"id": "C69", "title": "Columns of anisotropic cells are found and halved", "statement": "If the anisotropic cells form columns, each cell being strongly coupled to the next cells of its column and to no other anisotropic cell, then the lines built by the library are exactly the columns of at least two cells, and each is cut into pairs from its end with more boundary faces, an odd cell joining the last pair or being left to the isotropic part. In particular a regular grid stretched in one direction, with an even number of cells in it, is coarsened by two in this direction and not at all in the others.", "quantifier": "all meshes whose anisotropic cells form columns, all stretched regular grids of any size and dimension, all numberings, priorities, thresholds, arithmetics and hash orders", "why_tests_cant": "The order in which lines are seeded depends on the candidate map, on the ratios of weights and on the numbering; tests look at single grids with one numbering, where a wrong rule for extending or reversing a line may give the same lines.", "anchors": ["include/CoMMA/Agglomerator.h:build_anisotropic_lines", "include/CoMMA/Agglomerator.h:agglomerate_one_level", "include/CoMMA/Dual_Graph.h:tag_anisotropic_cells", "README.md:20"]}
{"id": "C70", "title": "Multigrid levels of regular grids", "statement": "Chaining levels on a regular grid of quadrangles or hexahedra whose sizes are divisible by 2^m (same options as C67, each coarse graph built from the previous result): m levels succeed, the coarse cells of the last level are exactly the blocks of 2^m cells in each direction, and the last coarse mesh is again a regular grid, with the coordinates divided by 2^m and the right boundary faces.", "quantifier": "all regular grids, all numbers of levels, numberings, priorities, volumes, centres, weights, compliant cells, orders of neighbourhood, arithmetics and hash orders", "why_tests_cant": "Each level feeds the coarse graph, priorities and boundary counts of the previous one into the next; tests check one level of one grid, and never that the coarse data make the next level work.", "anchors": ["include/CoMMA/CoMMA.h:agglomerate_one_level", "include/CoMMA/Util.h:build_coarse_graph", "README.md:21"]}
{"id": "C71", "title": "Lines over several levels", "statement": "Chaining levels with anisotropic agglomeration, no limit on the length of lines, on a mesh in one piece: a line of 2^m*h cells (given by the caller, or a column found by the first level) becomes after m levels a line of h coarse cells, each made of 2^m consecutive cells of the line and of nothing else. On a stretched grid (C69) whose number of layers is divisible by 2^m, m levels divide the layer of each cell by 2^m and never put together cells of two columns.", "quantifier": "all meshes in one piece, lines, numbers of levels, stretched grids, numberings, weights far enough apart, orders of neighbourhood, arithmetics and hash orders", "why_tests_cant": "The lines exported by one level are the input of the next, which numbers its cells anew; a test of one level cannot see a line which is exported in a form the next level cuts differently, and tests of several levels check one mesh.", "anchors": ["include/CoMMA/CoMMA.h:agglomerate_one_level", "include/CoMMA/Agglomerator.h:export_anisotropic_lines", "include/CoMMA/Agglomerator.h:build_anisotropic_lines", "include/CoMMA/Util.h:build_coarse_graph"]}
{"id": "C72", "title": "The Python wall distance agrees with the C++ one", "statement": "compute_neighbourhood_wall_distance (Python) returns the distances to the wall, the same as the C++ function, on every mesh. (Fails at full strength: a reached cell without neighbours raises ValueError from np.nditer; true when every reached cell has a neighbour, which on a symmetric graph only concerns wall cells.)", "quantifier": "all graphs, sets of wall cells, initial contents of the C++ output", "why_tests_cant": "Two programs in two languages must agree on every graph; a test on a connected mesh never meets a cell without neighbours.", "anchors": ["examples/scripts/comma_tools.py:compute_neighbourhood_wall_distance", "include/CoMMA/Util.h:compute_neighbourhood_based_wall_distance"]}
{"id": "C73", "title": "The Python coarse graph", "statement": "build_coarse_graph (Python): coarse cells are neighbours when they hold neighbouring cells; volumes are sums, boundary faces maxima, centres volume-weighted averages; a number which is not used raises AssertionError; the weight of a coarse face is the sum of the weights of the faces between the two cells. (The last part fails: weights are read at the number of the neighbour instead of the position of the face; true if all weights are the same.)", "quantifier": "all graphs, all maps from cells to coarse cells, volumes, centres, weights and arithmetics", "why_tests_cant": "The wrong index stays in range, so no error shows, and the scripts run it on meshes where nobody sums the weights by hand.", "anchors": ["examples/scripts/comma_tools.py:build_coarse_graph"]}
{"id": "C74", "title": "The coarse graph of the test helpers", "statement": "build_coarse_CSR (misc_scripts/test_util.h) builds the coarse graph, with the sums of the weights of the faces, volumes, boundary maxima and centres. (Fails at full strength: the vectors of neighbours and weights are appended to and not cleared, so given vectors which are not empty the result is not a graph; centres are plain averages, not weighted by volumes.)", "quantifier": "all graphs, maps, volumes, weights, arithmetics, previous contents of the outputs", "why_tests_cant": "Tests call it with fresh vectors only.", "anchors": ["misc_scripts/test_util.h:build_coarse_CSR"]}
{"id": "C75", "title": "Lines told to the cells", "statement": "assign_anisotropic_line_data_to_cells gives each cell the identifier of the line of its coarse cell, never the default value, and the default to cells of no line; without modulo different lines get different identifiers (a shuffling being a permutation); limit_line_length keeps the first cells of each line. (The documentation also says identifiers are negative when the default is positive; this fails, the first line may get 0.)", "quantifier": "all lines, maps, default values, modulos, permutations", "why_tests_cant": "The identifier 0 looks like any other on a picture; a check of a few lines does not see two lines which share an identifier.", "anchors": ["examples/scripts/comma_tools.py:assign_anisotropic_line_data_to_cells", "examples/scripts/ex_rae.py:limit_line_length"]}
{"id": "C76", "title": "Data put in blocks and shuffled", "statement": "prepare_meshio_celldata cuts data in consecutive blocks of the sizes asked for; prepare_meshio_agglomeration_data gives each cell the number of its coarse cell, replaced through the shuffling if there is one and taken modulo if the modulo is greater than one; without modulo two cells get the same number if and only if they are in the same coarse cell; the argument is left as it is. (The last part fails: a numpy array is modified in place when a modulo is given (or data are shuffled), so the caller's map is changed.)", "quantifier": "all data, block sizes, maps, permutations, modulos", "why_tests_cant": "The caller sees the damage only when it uses its map again after drawing.", "anchors": ["examples/scripts/comma_tools.py:prepare_meshio_celldata", "examples/scripts/comma_tools.py:prepare_meshio_agglomeration_data"]}
{"id": "C77", "title": "The scripts follow the cells through the levels", "statement": "The vector updated at each level by the example scripts tells, for each cell of the finest mesh, its coarse cell at the last level: the composition of the maps of all levels.", "quantifier": "all numbers of levels and maps", "why_tests_cant": "Composition of maps of different lengths read in the wrong order is still in range; only an argument for all maps settles it.", "anchors": ["examples/scripts/ex_several_agglo_levels.py", "examples/scripts/ex_rae.py"]}
{"id": "C78", "title": "Priorities of the example scripts", "statement": "The priorities built by the example scripts (np.arange(start=n-1, stop=0, step=-1)) are enough for agglomerate_one_level. (Fails: there is one less than cells; on any otherwise good call without lines, the entry past the end is read whenever the seeds pool starts from one point, or the last cell has most boundary faces.)", "quantifier": "all good calls without lines, orders of the seeds pool, arithmetics and hash orders", "why_tests_cant": "Reading one entry past the end of a vector usually returns some value and no error.", "anchors": ["examples/scripts/ex_several_agglo_levels.py", "examples/scripts/ex_default_dualGPy.py", "include/CoMMA/Seeds_Pool.h"]}
{"id": "C79", "title": "Meshes are read from files as documented", "statement": "read_mesh_from_file reads the dimension and six lines of comma-separated numbers: numbers too many are discarded, missing ones leave what the vector held or zero, lines after the last are ignored; for any file, reading ends, and if it returns the sizes of the vectors go together. All vectors are resized to the data. (The last sentence fails: the vector of row pointers is appended to, so a vector which is not empty gives another mesh.)", "quantifier": "all files, all previous contents of the output vectors, all ways of reading weights", "why_tests_cant": "Wrong or truncated files are unlimited in number; tests read one good file in fresh vectors.", "anchors": ["misc_scripts/test_util.h:read_mesh_from_file", "misc_scripts/test_util.h:convert_to"]}
{"id": "C80", "title": "A mesh written by dump_graph is read back by read_mesh_from_file", "statement": "The file written by the Python function dump_graph, read by the C++ function read_mesh_from_file in fresh vectors, gives the same dimension and the same mesh. (Fails at full strength: weights are rounded to a number of decimals, so a small positive volume is read back as zero; true up to this rounding.)", "quantifier": "all meshes in two or three dimensions, all ways of rounding, writing and reading weights for which what is written is read as the same number", "why_tests_cant": "A writer in one language and a reader in another agree on every mesh only if each separator and count agrees; a sample file cannot show it.", "anchors": ["examples/scripts/comma_tools.py:dump_graph", "misc_scripts/test_util.h:read_mesh_from_file"]}
{"id": "C81", "title": "The levels of the example scripts", "statement": "On a mesh in one piece, the loop of ex_several_agglo_levels.py ends normally for any number of levels: each call of the library gets the coarse graph built in Python from the previous one, each level covers the cells of the previous one with consecutive numbers, the loop is left early only after a level with one coarse cell, and what is drawn for a cell of the mesh is its coarse cell over all levels. (Fails at full strength: the priorities computed by the scripts are one too few, and a later call reads past their end; cells without neighbours make build_coarse_graph raise. True with one priority for each cell.)", "quantifier": "all meshes in one piece, all numbers of levels, all arguments of the library which it accepts, all arithmetics in which sums of volumes are not zero, all hash orders", "why_tests_cant": "The scripts are not run by the tests; a read past the end of a short vector usually goes unnoticed, and each further level depends on what the previous one returned.", "anchors": ["examples/scripts/ex_several_agglo_levels.py", "examples/scripts/comma_tools.py:build_coarse_graph", "include/CoMMA/CoMMA.h:agglomerate_one_level"]}
{"id": "C82", "title": "The cells drawn for each line", "statement": "After a call with anisotropic lines, the dictionary built by ex_aniso_lines.py for drawing has one entry for each line which was agglomerated, in the same order: the cells of this line, increasing, without those of other lines or of isotropic coarse cells. When the length of a line is odd and odd lines are not allowed, its last cell in the order in which it is cut is missing; otherwise no cell is. With a limit on the lines, the same holds of the first cells of each line, as many as C12 says.", "quantifier": "all valid calls of the library with lines (given or built), with or without a limit on the lines, all arithmetics, all hash orders", "why_tests_cant": "The scripts are not run by the tests, and a picture with a line too short or too long is not compared with anything.", "anchors": ["examples/scripts/ex_aniso_lines.py:222", "include/CoMMA/Agglomerator.h:Agglomerator_Anisotropic::agglomerate_one_level"]}
{"id": "C83", "title": "Closer cells have higher priorities in ex_rae.py", "statement": "The priorities of the first level of ex_rae.py, 1 / (1 + distance to the foil) in double precision, are one for each cell; a cell closer to the foil (quadrilaterals with a boundary face) has a strictly higher priority, cells at the same distance have the same one. (Fails at full strength: a cell without a path to the foil has distance -1, hence an infinite priority, higher than those of the foil. True for cells with a path, for distances below 2^51.)", "quantifier": "all symmetric graphs in which each cell has a neighbour, all numbers of points and boundary faces, all pairs of cells", "why_tests_cant": "The scripts are not run by the tests; that rounding never makes two priorities equal or swaps them concerns all distances.", "anchors": ["examples/scripts/ex_rae.py:190", "examples/scripts/ex_rae.py:202", "examples/scripts/comma_tools.py:compute_neighbourhood_wall_distance"]}
{"id": "C84", "title": "Coarse cells of lines do not depend on the isotropic options", "statement": "Two well-formed calls with the same mesh, priorities and anisotropic arguments give the same lines and the same coarse cells of lines, with the same numbers, whatever the volumes, the seeds pool, the correction and its threshold, the cardinalities, the aspect ratio, the number of iterations and the neighbourhood are. If the lines are given by the caller, the faces and their weights, the centres and the compliant cells do not matter either.", "quantifier": "all well-formed calls with lines, given or built, all values of the isotropic arguments, all number systems, all hash orders", "why_tests_cant": "It is a statement about two calls and all values of nine arguments; the isotropic agglomeration and the correction work on the same container of coarse cells as the lines and renumber it.", "anchors": ["include/CoMMA/CoMMA.h:agglomerate_one_level", "include/CoMMA/Agglomerator.h:Agglomerator_Anisotropic", "include/CoMMA/Coarse_Cell_Container.h:Coarse_Cell_Container"]}
{"id": "C85", "title": "A line gives half as many coarse cells as it has cells", "statement": "With lines, the lines returned correspond one to one, in order, to the lines of at least two cells given by the caller, or to the lines built; each returned line has half as many coarse cells as the cells used of the line, rounded down. All the cells of a line are used unless max_cells_in_line is less.", "quantifier": "all well-formed calls with lines, given or built, all limits on the cells of a line, all number systems, all hash orders", "why_tests_cant": "The number of coarse cells of a line depends on its length, on odd lengths, on the limit and on the parity of the limit; tests have a few lengths of lines and limits only.", "anchors": ["include/CoMMA/Agglomerator.h:Agglomerator_Anisotropic::agglomerate_one_level", "include/CoMMA/Agglomerator.h:export_anisotropic_lines", "include/CoMMA/CoMMA.h:agglomerate_one_level"]}
