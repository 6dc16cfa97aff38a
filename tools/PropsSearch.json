{"file":"PropsSearch","title":"search and ordering (C15, C29, C37)","imports":["NbhP","NeighP","Inst","SearchT"],
"entries":[
{"thm":"C15_neighbourhood_search","src":"SearchT","lem":"C15_lem","ex":["C15_ex"],
 "doc":"C15.  The neighbourhood search returns normally a map holding exactly the\n    free cells which are not seeds at distance 1..K of the seeds, with their\n    distance; it stops early only if everything reachable is included, and\n    goes beyond the requested order only while fewer than [max_card] cells are\n    known."},
{"thm":"C29_growth_candidates","src":"SearchT","lem":"C29_lem","ex":["C29_ex"],
 "doc":"C29.  After adding the cells [cs] one by one, the candidates are eligible\n    cells adjacent to the coarse cell and not in it; all of them for the\n    extended neighbourhood ([front = None]); at least one if there is one.\n    Candidates (pure front) or the candidates added last (extended) come by\n    decreasing priority."},
{"thm":"C37_pair_orders","src":"SearchT","lem":"C37_lem","ex":["C37_ex"],
 "doc":"C37.  Both comparisons of (index, weight) pairs are strict weak orders,\n    equivalent elements having the same index and equivalent weights."},
{"thm":"C37_ordered_sets","src":"SearchT","lem":"C37_set_lem","ex":[],
 "doc":"C37.  An ordered set of pairs holds one entry per inserted cell, by\n    decreasing weight then increasing index."}
]}
