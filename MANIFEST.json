{
 "claims": [
  {
   "property": "C01",
   "status": "proved",
   "theorems": [
    "C01_every_cell_once",
    "C01_one_coarse_cell"
   ],
   "note": "For every well-formed call (good_call in Spec.v), every hash order and every arithmetic; the container statement without correction or with single cells corrected."
  },
  {
   "property": "C02",
   "status": "partial",
   "theorems": [
    "C02_contiguous_partial",
    "C66_touching_partial",
    "C02_contiguous_refuted"
   ],
   "note": "Proved without correction and when at most single cells are corrected; refuted at full strength for singular_card_thresh >= 2; for larger thresholds proved (simple adjacency) whenever in each coarse cell to correct all cells or none touch another isotropic coarse cell (C66_touching_partial)."
  },
  {
   "property": "C03",
   "status": "partial",
   "theorems": [
    "C03_connected_partial",
    "C66_touching_partial",
    "C03_connected_refuted"
   ],
   "note": "Proved without correction and when at most single cells are corrected; refuted at full strength for singular_card_thresh >= 2; for larger thresholds proved (simple adjacency) whenever in each coarse cell to correct all cells or none touch another isotropic coarse cell (C66_touching_partial)."
  },
  {
   "property": "C04",
   "status": "proved",
   "theorems": [
    "C04_max_card"
   ],
   "note": "Every well-formed call."
  },
  {
   "property": "C05",
   "status": "proved",
   "theorems": [
    "C05_small_cells"
   ],
   "note": "Every well-formed call."
  },
  {
   "property": "C06",
   "status": "partial",
   "theorems": [
    "C06_no_error_partial",
    "C06_odd_limit_refuted",
    "C06_one_point_refuted",
    "C06_threshold_refuted"
   ],
   "note": "Proved for well-formed calls; refuted in three situations which the argument checks let through."
  },
  {
   "property": "C07",
   "status": "proved",
   "theorems": [
    "C07_terminates"
   ],
   "note": "Fuel of every loop of the model is sufficient; identifiers and the number of coarse cells are bounded by the number of fine cells."
  },
  {
   "property": "C08",
   "status": "proved",
   "theorems": [
    "C08_rejected_exactly",
    "C08_aspect_ratio",
    "C08_aspect_ratio_good_call"
   ],
   "note": "For arbitrary arguments, every hash order and arithmetic. Reasons other than the aspect ratio: exact characterisation. The late check of the aspect ratio: exact up to failures of the earlier stages, which do not depend on it and do not occur for well-formed calls."
  },
  {
   "property": "C09",
   "status": "proved",
   "theorems": [
    "C09_no_avoidable_single_cell"
   ],
   "note": "Every well-formed call."
  },
  {
   "property": "C10",
   "status": "proved",
   "theorems": [
    "C10_correction_keeps_anisotropic_cells"
   ],
   "note": "Every well-formed call and threshold."
  },
  {
   "property": "C11",
   "status": "proved",
   "theorems": [
    "C11_line_pieces"
   ],
   "note": "Every well-formed call with lines given or built."
  },
  {
   "property": "C12",
   "status": "partial",
   "theorems": [
    "C12_line_limit_partial",
    "C12_leaves_line_refuted",
    "C12_limit_exceeded_refuted"
   ],
   "note": "Refuted at full strength (limit odd and line one cell shorter: undefined behaviour; limit even and line one cell longer: one cell too many); the exact effect of the limit is proved otherwise."
  },
  {
   "property": "C13",
   "status": "proved",
   "theorems": [
    "C13_exported_lines"
   ],
   "note": "Every well-formed call."
  },
  {
   "property": "C14",
   "status": "proved",
   "theorems": [
    "C14_built_lines"
   ],
   "note": "Every well-formed call which builds lines."
  },
  {
   "property": "C15",
   "status": "proved",
   "theorems": [
    "C15_neighbourhood_search"
   ],
   "note": "For every CSR symmetric graph, hash order, seeds and agglomeration state."
  },
  {
   "property": "C16",
   "status": "proved",
   "theorems": [
    "C16_seed_of_history",
    "C16_seeds_of_run"
   ],
   "note": "First theorem: any history of a boundary-priority pool (start, lines, seeds taken, agglomerations, updates), for one-point pools when no priority is below the smallest positive number (otherwise see C18). Second: the seeds taken during a call. Boundary counts as clipped to the dimension; no NaN."
  },
  {
   "property": "C17",
   "status": "partial",
   "theorems": [
    "C17_seed_partial",
    "C17_neighbour_refuted",
    "C17_highest_refuted"
   ],
   "note": "Refuted at full strength: the pool forgets neighbours put in lower queues only when its levels are passed, and when it is exhausted it takes the level of the first free cell reaching the level of the last seed. The exact rule is proved for all histories: a free seed is found whenever there is a free cell, from the queues as long as they have one."
  },
  {
   "property": "C18",
   "status": "partial",
   "theorems": [
    "C18_first_seed_partial",
    "C18_non_positive_undefined",
    "C18_first_seed_refuted"
   ],
   "note": "Refuted at full strength for priorities below the smallest positive number (undefined behaviour); proved whenever one of the cells with the most boundary faces has a priority at least that."
  },
  {
   "property": "C19",
   "status": "proved",
   "theorems": [
    "C19_wall_distance",
    "C19_distance_from_wall"
   ],
   "note": "For every well-formed CSR graph and list of wall cells, whatever the previous content of the output vector."
  },
  {
   "property": "C20",
   "status": "partial",
   "theorems": [
    "C20_coarse_graph_partial",
    "C20_no_isolated_cell",
    "C20_coarse_graph_refuted"
   ],
   "note": "Refuted at full strength: weights are read at the index of the neighbour, out of bounds for some graphs with isolated cells (undefined behaviour). Proved for all data without such a read, in particular whenever every cell has a neighbour; the map need not be surjective."
  },
  {
   "property": "C21",
   "status": "proved",
   "theorems": [
    "C21_volumes",
    "C21_consistent_data"
   ],
   "note": "Whenever the function returns normally, for any data, and it does return for consistent data (C21_consistent_data). The sum is taken in the order of the cells for any arithmetic; conservation of the total needs exact addition (associative, commutative, neutral zero), given as hypotheses, and one volume per cell."
  },
  {
   "property": "C22",
   "status": "partial",
   "theorems": [
    "C22_weights_partial",
    "C22_weights_refuted"
   ],
   "note": "Refuted: the weight used for a face is found at the index of the neighbouring cell instead of the position of the face. The exact formula is proved; correct for constant weights."
  },
  {
   "property": "C23",
   "status": "partial",
   "theorems": [
    "C23_centres_partial",
    "C23_centres_refuted"
   ],
   "note": "Refuted: the volume-weighted sum is divided by the number of cells. The exact formula is proved; correct when the volumes of the coarse cell add up to the number of its cells."
  },
  {
   "property": "C24",
   "status": "partial",
   "theorems": [
    "C24_maxima_partial",
    "C24_maxima_refuted"
   ],
   "note": "Refuted for non-positive priorities: the maximum starts from the smallest positive number. Proved for boundary counts and for coarse cells with a priority above that number."
  },
  {
   "property": "C25",
   "status": "partial",
   "theorems": [
    "C25_filter_partial",
    "C25_filter_refuted"
   ],
   "note": "Refuted: the filtered set of allowed values is computed but the unfiltered one is used. The exact rule is proved."
  },
  {
   "property": "C26",
   "status": "partial",
   "theorems": [
    "C26_order_independent_partial",
    "C26_order_refuted"
   ],
   "note": "Proved for well-formed calls without correction or when only single cells are corrected. When the aspect ratio is made of distances, the extremum of a set of distances must be unique (dist_order), which holds for totally ordered numbers and always for doubles (C59). Refuted at full strength: with a threshold of two, cells are re-assigned in the order of an unordered_map and two orders give different coarse cells."
  },
  {
   "property": "C27",
   "status": "proved",
   "theorems": [
    "C27_compactness_of_run"
   ],
   "note": "For well-formed calls on simple symmetric meshes; every growth history of a run."
  },
  {
   "property": "C28",
   "status": "proved",
   "theorems": [
    "C28_features",
    "C28_order"
   ],
   "note": "Exact arithmetic (commutative ring, order only used for diameter and minimal edge), symmetric face weights. Each kind of aspect ratio maintains only the features it needs; boundary weights are the documented estimate."
  },
  {
   "property": "C29",
   "status": "proved",
   "theorems": [
    "C29_growth_candidates",
    "C29_pure_front"
   ],
   "note": "Every history of additions, both neighbourhood types; C29_pure_front gives the candidates of the pure front exactly."
  },
  {
   "property": "C30",
   "status": "partial",
   "theorems": [
    "C30_connectivity_partial",
    "C30_no_face_undefined",
    "C30_connectivity_refuted"
   ],
   "note": "Refuted at full strength: several cells without any face, the function reads the first column index of an empty vector. Proved for all other graphs and any number of successive calls."
  },
  {
   "property": "C31",
   "status": "partial",
   "theorems": [
    "C31_constructor",
    "C31_insert_partial",
    "C31_insert_never_right",
    "C31_insert_refuted",
    "C31_remove_partial",
    "C31_remove_leaf_partial",
    "C31_remove_refuted"
   ],
   "note": "Refuted at full strength. The constructor builds the induced subgraph. Insertion is right exactly for cells without neighbour in the mesh (both directions proved). Removal is proved for cells without neighbour in the subgraph. For cells with one neighbour the exact condition is proved: right, or undefined behaviour. For cells with several neighbours wrong rows are exhibited. Iterators are positions: formally erase invalidates them."
  },
  {
   "property": "C32",
   "status": "partial",
   "theorems": [
    "C32_levels_partial",
    "C32_levels_refuted",
    "C32_threshold_refuted"
   ],
   "note": "Refuted at full strength twice: building the coarse graph of a mesh with isolated cells is undefined, and with a singular threshold of two or more the coarse graph can contain a cell without fine cells, so the next level is undefined. Proved by induction over the number of levels for connected meshes, correction off or threshold one, all weights totally comparable, and (with anisotropy) no odd line limit: each level returns normally, the coarse graph is built, the next call is well-formed and connected, and the lines handed on are paths of it."
  },
  {
   "property": "C33",
   "status": "partial",
   "theorems": [
    "C33_outputs_unchanged_partial",
    "C33_outputs_unchanged_refuted"
   ],
   "note": "Proved for fc_to_cc always and for all outputs unless the aspect ratio is unknown and anisotropy is on; refuted at full strength: the lines are overwritten before the aspect ratio is checked."
  },
  {
   "property": "C34",
   "status": "proved",
   "theorems": [
    "C34_boundary_counts_clipped"
   ],
   "note": "For arbitrary arguments."
  },
  {
   "property": "C35",
   "status": "proved",
   "theorems": [
    "C35_threshold_clipped"
   ],
   "note": "For arbitrary arguments."
  },
  {
   "property": "C36",
   "status": "partial",
   "theorems": [
    "C36_number_of_cells_partial",
    "C36_counter_after_correction_partial",
    "C36_number_of_cells_refuted"
   ],
   "note": "Proved before correction; refuted after a correction which removes a coarse cell. For any threshold the counter after the correction is the number of coarse cells before it, so where no coarse cell is torn it is right exactly if the correction changed nothing."
  },
  {
   "property": "C37",
   "status": "proved",
   "theorems": [
    "C37_pair_orders",
    "C37_ordered_sets"
   ],
   "note": "For every weight type on which < is a strict weak order (no NaN)."
  },
  {
   "property": "C38",
   "status": "partial",
   "theorems": [
    "C38_best_candidate",
    "C38_look_ahead_partial",
    "C38_look_ahead_refuted"
   ],
   "note": "Proved for the biconnected agglomerator: the choice is the first of the best candidates by faces, order and aspect ratio, and shares a face. For the iterative agglomerator the same holds for the values seen with look-ahead; refuted at full strength, as with look-ahead a candidate sharing fewer faces can be preferred."
  },
  {
   "property": "C39",
   "status": "partial",
   "theorems": [
    "C39_aspect_ratio_partial",
    "C39_barycentre_refuted",
    "C39_min_edge_refuted"
   ],
   "note": "Refuted at full strength for MAX_BARY_DIST_OVER_RADIUS (and MAX_OVER_MIN_BARY_DIST, same barycentre: weighted sum of centres divided by the number of cells instead of the measure) and for DIAMETER_OVER_MIN_EDGE of two cells (squared diameter returned). Proved for all other kinds, and for these with the point and the exception stated. Ratios are those of the powers used by the code to avoid roots."
  },
  {
   "property": "C40",
   "status": "partial",
   "theorems": [
    "C40_grown_partial",
    "C40_external_faces_refuted"
   ],
   "note": "Refuted at full strength: the program counts one external face less for every cell (its own comment says the formula does not work), so the number it minimises is not the number of external faces. Proved for every call without correction, with the program's count in place of the true one: seed from the pool, neighbourhood, successive candidates, size kept."
  },
  {
   "property": "C41",
   "status": "proved",
   "theorems": [
    "C41_correction"
   ],
   "note": "Both calls are shown to succeed. Stated between the two results only; the state is the vector fc_to_cc. The order in which the cells of one coarse cell are treated is that of an unordered_map and is left arbitrary. Graphs without repeated neighbours or loops."
  },
  {
   "property": "C42",
   "status": "proved",
   "theorems": [
    "C42_line_direction"
   ],
   "note": "For all weights and hash orders. oriented (SpecLine.v) says which end comes first, with boundary faces clipped to the dimension as in the code."
  },
  {
   "property": "C43",
   "status": "partial",
   "theorems": [
    "C43_tagging_partial",
    "C43_preserving_refuted",
    "C43_numbers_partial"
   ],
   "note": "Refuted at full strength: the value 3 of preserving has no effect (missing break). Everything else is proved, for both couplings and all thresholds, for totally ordered numbers; C43_numbers_partial needs the order to be total only on the numbers compared."
  },
  {
   "property": "C44",
   "status": "proved",
   "theorems": [
    "C44_built_lines_rule",
    "C44_numbers"
   ],
   "note": "built_lines (SpecLine.v) is the rule; the theorem says that the lines built follow it and that no other lines do. For totally ordered numbers; C44_numbers needs the order to be total only on the numbers compared (for doubles: C62)."
  },
  {
   "property": "C45",
   "status": "proved",
   "theorems": [
    "C45_all_coarse_cells"
   ],
   "note": "Whole sequence of isotropic coarse cells of a call without correction, from the queues at the start to the last cell. The growth rule is that of C40, with the count of external faces used by the program (one less per cell than the true one; see C40_external_faces_refuted)."
  },
  {
   "property": "C46",
   "status": "partial",
   "theorems": [
    "C46_most_faces_partial",
    "C41_correction",
    "C46_most_faces_refuted"
   ],
   "note": "Refuted as documented: compactness comes before the number of shared faces (witness: cell 8 of a mesh of nine cells shares three faces with coarse cell 0 and two with coarse cell 1, and joins coarse cell 1). Positive part: with a single cell to correct and no coarse cell which becomes more compact the documented choice is made; C41 gives the rule in general."
  },
  {
   "property": "C47",
   "status": "proved",
   "theorems": [
    "C47_argument_classes",
    "C47_defaults",
    "C47_python",
    "C47_python_defaults",
    "C47_python_coarse_graph",
    "C47_python_tools"
   ],
   "note": "Every combination of arguments left out; the conversions made by pybind11 are not modelled."
  },
  {
   "property": "C48",
   "status": "proved",
   "theorems": [
    "C48_queue",
    "C48_queue_reads",
    "C48_priority_pair"
   ],
   "note": "The -1 of the empty queue is an arbitrary value of the element type; greater-than is less-than with the arguments swapped."
  },
  {
   "property": "C49",
   "status": "partial",
   "theorems": [
    "C49_bimap_partial",
    "C49_insert_clash_partial",
    "C49_insert_refuted",
    "C49_update_refuted"
   ],
   "note": "Refuted at full strength: keys in use are not looked for. Proved for all sequences of operations which never give a key to two pairs; every clashing insertion breaks the container."
  },
  {
   "property": "C50",
   "status": "partial",
   "theorems": [
    "C50_tree_partial",
    "C50_delete_partial",
    "C50_delete_right",
    "C50_unknown_father",
    "C50_delete_refuted",
    "C50_still_there_refuted"
   ],
   "note": "Refuted at full strength: deleteNode is wrong except for the last of several sons. The theorem on deletions says exactly which are right and which have undefined behaviour."
  },
  {
   "property": "C51",
   "status": "proved",
   "theorems": [
    "C51_only_result",
    "C51_sequence",
    "C51_corrected",
    "C51_choice_left"
   ],
   "note": "The result is the only one following the rules of C45 (no correction) and of C41 (single cells corrected); C51_choice_left shows that the restriction to single cells is needed."
  },
  {
   "property": "C52",
   "status": "proved",
   "theorems": [
    "C52_order_only",
    "C52_conditions_needed"
   ],
   "note": "The first theorem holds for all calls, with errors and undefined behaviour as outcomes; the second shows that neither hypothesis can be dropped."
  },
  {
   "property": "C53",
   "status": "proved",
   "theorems": [
    "C53_boundary_faces",
    "C53_anisotropy_off",
    "C53_lines_given",
    "C53_threshold_without_correction",
    "C53_threshold_clipped",
    "C53_neighbourhood_codes",
    "C53_coupling_codes",
    "C53_previous_contents"
   ],
   "note": "For all calls, well-formed or not."
  },
  {
   "property": "C54",
   "status": "proved",
   "theorems": [
    "C54_no_overflow",
    "C54_only_overflow",
    "C54_negative_counts",
    "C54_wall_distance",
    "C54_filter"
   ],
   "note": "The anisotropic part is not covered: it counts lines with indices. int is taken to have 32 bits."
  },
  {
   "property": "C55",
   "status": "partial",
   "theorems": [
    "C55_differences_partial",
    "C55_translation_partial",
    "C55_rigid_motion_partial",
    "C55_centres_unused",
    "C55_translation_refuted"
   ],
   "note": "Refuted at full strength: the barycentre of aspect ratio 7 (and 8) is a sum of volume times centre divided by the number of cells instead of the volume, so it depends on the origin. For the other aspect ratios translations change nothing, whatever the call. Rotations and reflections change nothing if lines are not to be built."
  },
  {
   "property": "C56",
   "status": "partial",
   "theorems": [
    "C56_units_partial",
    "C56_units_refuted"
   ],
   "note": "Refuted at full strength for aspect ratio 7, whose barycentre is divided by a number of cells instead of a volume. For all aspect ratios but 7 and 8, factors for face weights, volumes and lengths change nothing, built lines included."
  },
  {
   "property": "C57",
   "status": "proved",
   "theorems": [
    "C57_whole_result"
   ],
   "note": "The description (SpecWhole.result_right) uses no function of the model, only its types. Hypotheses: addition exact and order total, couplings symmetric, no face listed twice, and for aspect ratio 8 the distances lie between the limits of the number type. For thresholds of the correction above 1 only \"the result fits the description\" is claimed, because then more than one result fits (C51_choice_left)."
  },
  {
   "property": "C58",
   "status": "partial",
   "theorems": [
    "C58_face_order_partial",
    "C58_face_order_refuted",
    "C58_double_refuted"
   ],
   "note": "Refuted at full strength twice: the neighbours of the cells of a line become seeds in the order in which the faces are listed, so another order can give other coarse cells (C58_face_order_refuted, 5 cells); and in double precision sums of weights depend on the order of the faces, even without lines (C58_double_refuted, 6 cells). Proved for exact numbers when there are no lines or the cells of the lines keep their order, without correction or with a correction of any threshold."
  },
  {
   "property": "C59",
   "status": "proved",
   "theorems": [
    "C59_double_result",
    "C59_double_good_call"
   ],
   "note": "Weights are the standard library's executable specification of IEEE 754 binary64 (Double.v), in which all NaN are one; std::reduce may add in any order."
  },
  {
   "property": "C60",
   "status": "partial",
   "theorems": [
    "C60_numbering_partial",
    "C60_lines_partial",
    "C60_levels_refuted",
    "C60_ties_refuted",
    "C60_neighbours_refuted",
    "C60_correction_refuted"
   ],
   "note": "Refuted at full strength: with a neighbourhood pool (orders 1 and 11) the numbers of the cells decide which level comes next once the queues are empty, even if all priorities differ (C60_levels_refuted); with equal priorities they decide as documented (C60_ties_refuted); when lines are built, the lowest number is preferred among neighbours that are equally good (C60_neighbours_refuted). Proved, with no correction or one of single cells: with the boundary-priority pools (orders 0 and 10), any renumbering that keeps the order of cells of equal priority gives the same coarse cells with the same numbers; with the other pools if cells with different numbers of boundary faces keep their order too; with lines (given or built) the same coarse cells and exported lines, if the faces of the cells of the lines are listed in the same order and, for built lines, the neighbours of a cell keep their order. Without lines, faces may be listed in another order at the same time. When coarse cells of more than one cell are corrected it is false, even if all the priorities differ and there are no lines: the cells of a coarse cell are handed out in an order that depends on their numbers (that of a hash table), and the choice made for one depends on the ones before (C60_correction_refuted, 9 cells)."
  },
  {
   "property": "C61",
   "status": "partial",
   "theorems": [
    "C61_at_most_half_partial",
    "C61_any_threshold",
    "C61_any_threshold_lines",
    "C61_cells_left_alone",
    "C61_levels",
    "C61_not_too_few",
    "C61_uncorrected_refuted",
    "C61_lines_refuted",
    "C61_not_too_few_refuted"
   ],
   "note": "At most half as many: proved for corrections with any threshold, without lines, if each cell has a neighbour (with thresholds above 1 the numbers in use may have gaps); with lines, for any threshold too, up to the cells all of whose neighbours are in coarse cells of lines; refuted without correction and with lines. Levels: k levels of a mesh in one piece divide the number by 2^k until one cell is left. At least n / max_card: proved without correction and lines, refuted with correction."
  },
  {
   "property": "C62",
   "status": "proved",
   "theorems": [
    "C62_double_tagging",
    "C62_double_lines",
    "C62_negative_zero_refuted"
   ],
   "note": "The conditions on face weights are in the statement; C62_negative_zero_refuted shows that the one on negative zeros cannot be dropped. Weights as in C59."
  },
  {
   "property": "C63",
   "status": "partial",
   "theorems": [
    "C63_pieces_partial",
    "C63_lines_partial",
    "C63_numbers_add_partial",
    "C63_numbers_add_lines_partial",
    "C63_order1_refuted",
    "C63_order10_refuted",
    "C63_order11_refuted",
    "C63_ties_refuted",
    "C63_neighbours_refuted",
    "C63_correction_refuted"
   ],
   "note": "Proved for the default seeds pool (order 0), for calls without lines and for calls with given or built lines, with no correction or a correction of single cells, in exact arithmetic. With lines, the faces of a cell of the piece are listed in the same order in both calls, and for built lines neighbours keep their relative order. Refuted at full strength: with each of the other pools, with a correction of coarse cells of two cells, if cells of equal priority change their relative order, and with built lines if neighbours change theirs."
  },
  {
   "property": "C64",
   "status": "proved",
   "theorems": [
    "C64_order",
    "C64_constants",
    "C64_extremes",
    "C64_integers",
    "C64_operations",
    "C64_square_roots",
    "C64_special"
   ],
   "note": "About the binary64 instance of the weights."
  },
  {
   "property": "C65",
   "status": "partial",
   "theorems": [
    "C65_iterators_partial",
    "C65_uncorrected_partial",
    "C65_either_partial",
    "C65_iterators_refuted"
   ],
   "note": "Refuted at full strength: extraction of a node from a std::map invalidates its iterator by the standard, and the renumbering loop increments it (six cells, default threshold). Exactly the corrected calls in which a coarse cell stays behind a removed one are concerned; implementations in use keep the iterator valid, as the rest of the model assumes."
  },
  {
   "property": "C66",
   "status": "partial",
   "theorems": [
    "C66_rule_partial",
    "C66_touching_partial",
    "C66_torn_refuted"
   ],
   "note": "Refuted at full strength for singular_card_thresh >= 2. Proved for any threshold: exactly which numbers are in use afterwards, which cells can be left behind, that nothing is wrong if there are none, and that a cell left behind under a number in use makes a coarse cell disconnected; and a condition on the uncorrected result under which none is left behind."
  },
  {
   "property": "C67",
   "status": "proved",
   "theorems": [
    "C67_blocks"
   ],
   "note": "For any arithmetic whose order of weights is a weak order, any hash order, numbering, priorities, volumes, centres, weights, order of neighbourhood, minimal and goal cardinality, with or without correction. Isotropic agglomeration only."
  },
  {
   "property": "C68",
   "status": "partial",
   "theorems": [
    "C68_look_ahead_refuted",
    "C68_front_refuted",
    "C68_flat_partial"
   ],
   "note": "Refuted at full strength: on a brick of 4 x 2 x 2 unit cells a look-ahead of four cells, or the pure front, gives other coarse cells than the blocks. Proved in two dimensions for any neighbourhood and any look-ahead."
  },
  {
   "property": "C69",
   "status": "proved",
   "theorems": [
    "C69_columns",
    "C69_stretched_grid"
   ],
   "note": "For any arithmetic satisfying line_order and any hash order, without a maximal line length. Columns: both coupling types, with or without forced direction. Stretched grids: strong faces have weight a, the others b, far enough apart; coupling by weights, direction not forced, all cells compliant."
  },
  {
   "property": "C70",
   "status": "proved",
   "theorems": [
    "C70_levels",
    "C70_coordinates"
   ],
   "note": "For any arithmetic whose order of weights is a weak order, any hash order, with or without correction; isotropic agglomeration, in three dimensions with the plain neighbourhood and without look-ahead (C68). The coarse graph is the one of build_coarse_graph."
  },
  {
   "property": "C71",
   "status": "proved",
   "theorems": [
    "C71_given_lines",
    "C71_columns",
    "C71_stretched_grid"
   ],
   "note": "For any arithmetic whose order of weights is a weak order and any hash order; with the correction, only single fine cells are corrected (as in C32); no limit on the length of lines. The coarse graph is the one of build_coarse_graph; the lines exported by a level are given to the next."
  },
  {
   "property": "C72",
   "status": "partial",
   "theorems": [
    "C72_refuted",
    "C72_distances_partial",
    "C72_symmetric_partial",
    "C72_raises"
   ],
   "note": "Refuted at full strength (C72_refuted: a wall cell without neighbours raises ValueError). Proved when every reached cell has a neighbour; otherwise the exception is raised (C72_raises), so the two cases cover all inputs with cells in range."
  },
  {
   "property": "C73",
   "status": "partial",
   "theorems": [
    "C73_weights_refuted",
    "C73_graph",
    "C73_data",
    "C73_numbers_left_out",
    "C73_weights_partial"
   ],
   "note": "Refuted for the weights (C73_weights_refuted), which are read at the number of the neighbour. The graph, volumes, boundary faces, centres and the AssertionError are proved for any arithmetic in which the volumes of the coarse cells are not 0; the weights actually computed are described, and right if all weights are the same."
  },
  {
   "property": "C74",
   "status": "partial",
   "theorems": [
    "C74_refuted",
    "C74_graph_partial",
    "C74_data_partial"
   ],
   "note": "Refuted at full strength (C74_refuted: outputs which are not empty). Proved for empty vectors of neighbours and weights, other outputs arbitrary; the centres are averages without weights."
  },
  {
   "property": "C75",
   "status": "partial",
   "theorems": [
    "C75_negative_refuted",
    "C75_line_of_cell",
    "C75_distinct",
    "C75_limit"
   ],
   "note": "Refuted for the sign of the identifiers (C75_negative_refuted); the rest is proved for all lines, defaults, modulos and permutations."
  },
  {
   "property": "C76",
   "status": "partial",
   "theorems": [
    "C76_in_place_refuted",
    "C76_blocks",
    "C76_shuffle",
    "C76_numbers"
   ],
   "note": "Refuted for the argument left as it is (C76_in_place_refuted); the blocks and the shuffling are proved."
  },
  {
   "property": "C77",
   "status": "proved",
   "theorems": [
    "C77_follow"
   ],
   "note": "For all lists of maps; the result is the composition of the maps."
  },
  {
   "property": "C78",
   "status": "partial",
   "theorems": [
    "C78_priorities_refuted",
    "C78_undefined"
   ],
   "note": "Refuted: the vector of priorities is one entry short. C78_undefined shows for all good calls without lines, all arithmetics and hash orders that the call is then undefined behaviour if the order of the pool has one starting point or the last cell has most boundary faces."
  },
  {
   "property": "C79",
   "status": "partial",
   "theorems": [
    "C79_append_refuted",
    "C79_read_partial",
    "C79_any_file"
   ],
   "note": "Refuted for the vector of row pointers, which is not emptied (C79_append_refuted). C79_read_partial gives the outputs for every file of numerals and all previous contents; C79_any_file covers all files. Numbers which do not fit their type are not modelled."
  },
  {
   "property": "C80",
   "status": "partial",
   "theorems": [
    "C80_rounding_refuted",
    "C80_read_back_partial"
   ],
   "note": "Refuted at full strength (C80_rounding_refuted: rounding to a number of decimals gives a zero volume). Proved up to rounding, in vectors of row pointers which are empty, if what is written for a weight is read as the same number."
  },
  {
   "property": "C81",
   "status": "partial",
   "theorems": [
    "C81_levels_partial",
    "C81_priorities_refuted",
    "C81_isolated_refuted"
   ],
   "note": "Refuted at full strength: with the priorities of the scripts (one too few) a later call of the library is undefined behaviour, and with cells without neighbours build_coarse_graph raises. Proved for any number of levels on connected meshes with one priority for each cell."
  },
  {
   "property": "C82",
   "status": "proved",
   "theorems": [
    "C82_drawn_lines",
    "C82_limited_lines"
   ],
   "note": "Without and with a limit on the lines."
  },
  {
   "property": "C83",
   "status": "partial",
   "theorems": [
    "C83_priorities_partial",
    "C83_refuted"
   ],
   "note": "Refuted at full strength (C83_refuted: a cell without a path to the foil has an infinite priority, higher than those of the foil). Proved for cells with a path to the foil, in double precision, for distances below 2^51 - 1."
  },
  {
   "property": "C84",
   "status": "proved",
   "theorems": [
    "C84_lines_alone",
    "C84_given_lines"
   ],
   "note": "For all arithmetics and hash orders; both calls are well-formed and lines are in use. C84_given_lines compares calls for different meshes and hash orders."
  },
  {
   "property": "C85",
   "status": "proved",
   "theorems": [
    "C85_half_of_each_line"
   ],
   "note": "For all arithmetics and hash orders; for built lines the order of the numbers must be total, as for C44."
  }
 ]
}
