{"file":"PropsUtil","title":"the tools of Util.h (C19-C25)","imports":["UtilM","Spec","SpecCoarse","WallT","CoarseT","CoarseU","CoarseV","CoarseE","Inst"],"opens":["#[local] Existing Instance qarith | 100.",""],"ctx":"{A : Arith}","types":{"f":"fgraph","g":"cgraph","f2c":"list nat","n":"nat","idx":"list nat","col":"list nat","wall":"list nat","dist0":"list Z","bnd":"list Z","allowed":"list Z"},"entries":[
{"thm":"C19_wall_distance","src":"WallT","lem":"C19_sym_lem","ctx":" ","ex":[["CoarseE","C19_ex"]],"doc":"C19.  Each cell gets the length of a shortest path to the wall, or -1 if there is\n    no such path; the vector given for the result does not matter."},
{"thm":"C19_distance_from_wall","src":"WallT","lem":"C19_lem","ctx":" ","ex":[["CoarseE","C19_ex"]],"doc":"C19.  In a graph which is not symmetric these are the distances from the wall."},
{"thm":"C20_coarse_graph_partial","src":"CoarseU","lem":"C20_lem","ex":[["CoarseE","C20_ex"]],"doc":"C20.  For consistent data: the coarse graph has exactly the edges induced by the\n    fine one.  Missing: graphs in which a weight is read out of bounds, see [ff_wgt]\n    and the last theorem about C20."},
{"thm":"C20_no_isolated_cell","src":"CoarseU","lem":"C20_isolated_lem","ex":[["CoarseE","C20_isolated_ex"]],"doc":"C20.  The weights are never read out of bounds when each cell has a neighbour."},
{"thm":"C20_coarse_graph_refuted","src":"CoarseE","lem":"C20_ref","noctx":true,"doc":"C20 is false for a graph with two isolated cells: undefined behaviour."},
{"thm":"C21_volumes","src":"CoarseU","lem":"C21_lem","ex":[["CoarseE","C21_ex"]],"doc":"C21.  Whenever the function returns: the volumes of the cells of each coarse cell are added, in the order of\n    the cells; in exact arithmetic the total volume is conserved."},
{"thm":"C21_consistent_data","src":"CoarseV","lem":"C21_fine_lem","ex":[["CoarseV","C24_int_ex"],["CoarseE","C21_ex"]],"doc":"C21.  For consistent data the function does return, with these volumes."},
{"thm":"C22_weights_partial","src":"CoarseU","lem":"C22_lem","ex":[["CoarseE","C22_ex"]],"doc":"C22.  The weight of a coarse face is the sum over its fine faces of the weights\n    found at the index of the neighbouring cell.  It is the sum of the weights of\n    the fine faces if all weights are the same.  Missing: the next theorem."},
{"thm":"C22_weights_refuted","src":"CoarseE","lem":"C22_ref","noctx":true,"doc":"C22 is false for weights which are not constant."},
{"thm":"C23_centres_partial","src":"CoarseU","lem":"C23_lem","ex":[["CoarseE","C23_ex"]],"doc":"C23.  A coarse centre is the volume-weighted sum divided by the number of cells,\n    which is the volume-weighted average if the mean volume is one.  Missing: the next\n    theorem."},
{"thm":"C23_centres_refuted","src":"CoarseE","lem":"C23_ref","noctx":true,"doc":"C23 is false for volumes other than one: the centre is outside the cells."},
{"thm":"C24_maxima_partial","src":"CoarseV","lem":"C24_int_lem","ex":[["CoarseV","C24_int_ex"]],"doc":"C24.  The number of boundary faces is the maximum, and so is the priority if one\n    priority exceeds the smallest positive number; otherwise it is this number.\n    Missing: the next theorem."},
{"thm":"C24_maxima_refuted","src":"CoarseE","lem":"C24_ref","noctx":true,"doc":"C24 is false for priorities which are not positive."},
{"thm":"C25_filter_partial","src":"CoarseT","lem":"C25_lem","ctx":" ","ex":[["CoarseE","C25_ex"]],"doc":"C25.  If one allowed value is positive the cells whose number of edges is allowed,\n    otherwise no cell, in increasing order.  Missing: the next theorem."},
{"thm":"C25_filter_refuted","src":"CoarseE","lem":"C25_ref","noctx":true,"doc":"C25 is false when zero is allowed along with a positive value: cells without edges\n    are kept."}
]}
