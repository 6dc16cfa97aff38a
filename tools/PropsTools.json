{
 "file": "PropsTools",
 "title": "Python helpers, scripts and test helpers (C72-C78)",
 "imports": [
  "Base",
  "Main",
  "UtilM",
  "ToolsM",
  "Spec",
  "SpecCoarse",
  "SpecHier",
  "SpecTools",
  "ToolsT",
  "ToolsU",
  "ToolsG",
  "ToolsL",
  "CoarseE",
  "GrowE",
  "ApiE",
  "GridE",
  "ToolsE",
  "Inst"
 ],
 "opens": [
  "#[local] Existing Instance qarith | 100.",
  "#[local] Existing Instance ord_id | 100.",
  ""
 ],
 "ctx": "{A : Arith} {H : HashOrder}",
 "types": {
  "i": "input",
  "o": "outs",
  "f": "fgraph",
  "f2c": "list nat",
  "g0": "cgraph"
 },
 "entries": [
  {
   "thm": "C72_distances_partial",
   "src": "ToolsT",
   "lem": "C72_lem",
   "ex": [
    [
     "ToolsE",
     "C72_full_ex"
    ]
   ],
   "doc": "C72.  If every cell reached from the wall has a neighbour, the Python function returns, and what it\n    returns is what the C++ function returns: the distances to the wall.",
   "noctx": true
  },
  {
   "thm": "C72_symmetric_partial",
   "src": "ToolsU",
   "lem": "C72_sym_lem",
   "ex": [
    [
     "ToolsE",
     "C72_ex"
    ]
   ],
   "doc": "C72.  On a symmetric graph it is enough that wall cells have neighbours.",
   "noctx": true
  },
  {
   "thm": "C72_raises",
   "src": "ToolsT",
   "lem": "C72_raise_lem",
   "ex": [
    [
     "ToolsE",
     "C72_raise_ex"
    ]
   ],
   "doc": "C72.  A cell without neighbours which is reached raises [ValueError].",
   "noctx": true
  },
  {
   "thm": "C72_refuted",
   "src": "ToolsE",
   "lem": "C72_ref",
   "ex": [],
   "doc": "C72 at full strength fails: a wall cell without neighbours raises, the C++ function returns.",
   "noctx": true
  },
  {
   "thm": "C73_graph",
   "src": "ToolsU",
   "lem": "C73_lem",
   "ex": [
    [
     "ToolsE",
     "C73_ex"
    ]
   ],
   "doc": "C73.  The coarse graph of the Python helper: two coarse cells are neighbours when they hold\n    neighbouring cells.",
   "ctx": "{A : Arith}"
  },
  {
   "thm": "C73_data",
   "src": "ToolsU",
   "lem": "C73_data_lem",
   "ex": [
    [
     "ToolsE",
     "C73_ex"
    ]
   ],
   "doc": "C73.  Volumes are sums, boundary faces are maxima, centres are averages weighted by the volumes.",
   "ctx": "{A : Arith}"
  },
  {
   "thm": "C73_numbers_left_out",
   "src": "ToolsU",
   "lem": "C73_assert_lem",
   "ex": [
    [
     "ToolsE",
     "C73_hole_ex"
    ]
   ],
   "doc": "C73.  If a coarse number is not used, [AssertionError] is raised.",
   "ctx": "{A : Arith}"
  },
  {
   "thm": "C73_weights_partial",
   "src": "ToolsU",
   "lem": "C73_weights_lem",
   "ex": [
    [
     "ToolsE",
     "C73_ex"
    ]
   ],
   "doc": "C73.  The weight of a coarse face is a sum over the faces between the two cells, but of the weights\n    at the numbers of the neighbours instead of the positions of the faces; right if all weights are the same.",
   "ctx": "{A : Arith}"
  },
  {
   "thm": "C73_weights_refuted",
   "src": "ToolsE",
   "lem": "C73_ref",
   "ex": [],
   "doc": "C73 at full strength fails: the weight is not the sum of the weights of the faces.",
   "noctx": true
  },
  {
   "thm": "C74_graph_partial",
   "src": "ToolsG",
   "lem": "C74_lem",
   "ex": [
    [
     "ToolsE",
     "C74_ex"
    ]
   ],
   "doc": "C74.  The coarse graph of the tests, given empty vectors for the neighbours and the weights: the\n    graph, and the sums of the weights of the faces.",
   "ctx": "{A : Arith}"
  },
  {
   "thm": "C74_data_partial",
   "src": "ToolsG",
   "lem": "C74_data_lem",
   "ex": [
    [
     "ToolsE",
     "C74_ex"
    ]
   ],
   "doc": "C74.  Volumes are sums, boundary faces are maxima, centres are averages not weighted.",
   "ctx": "{A : Arith}"
  },
  {
   "thm": "C74_refuted",
   "src": "ToolsE",
   "lem": "C74_ref",
   "ex": [],
   "doc": "C74 at full strength fails: vectors which are not empty give no graph.",
   "noctx": true
  },
  {
   "thm": "C75_line_of_cell",
   "src": "ToolsL",
   "lem": "C75_lem",
   "ex": [
    [
     "ToolsE",
     "C75_ex"
    ]
   ],
   "doc": "C75.  Each cell gets the identifier of the line of its coarse cell, which is not the default; the\n    cells of coarse cells which are in no line get the default.",
   "noctx": true
  },
  {
   "thm": "C75_distinct",
   "src": "ToolsL",
   "lem": "C75_distinct_lem",
   "ex": [
    [
     "ToolsE",
     "C75_distinct_ex"
    ]
   ],
   "doc": "C75.  Without modulo, lines have different identifiers.",
   "noctx": true
  },
  {
   "thm": "C75_limit",
   "src": "ToolsL",
   "lem": "C75_limit_lem",
   "ex": [
    [
     "ToolsE",
     "C75_limit_ex"
    ]
   ],
   "doc": "C75.  Limiting the lines keeps the first cells of each of them.",
   "noctx": true
  },
  {
   "thm": "C75_negative_refuted",
   "src": "ToolsE",
   "lem": "C75_ref",
   "ex": [],
   "doc": "C75 at full strength fails: with a positive default, the identifier of the first line is not\n    negative.",
   "noctx": true
  },
  {
   "thm": "C76_blocks",
   "src": "ToolsL",
   "lem": "C76_blocks_lem",
   "ex": [
    [
     "ToolsE",
     "C76_blocks_ex"
    ]
   ],
   "doc": "C76.  The blocks have the sizes asked for, and are the data put end to end.",
   "noctx": true
  },
  {
   "thm": "C76_shuffle",
   "src": "ToolsL",
   "lem": "C76_shuffle_lem",
   "ex": [
    [
     "ToolsE",
     "C76_shuffle_ex"
    ]
   ],
   "doc": "C76.  After shuffling, two cells have the same number if and only if they are in the same coarse cell.",
   "noctx": true
  },
  {
   "thm": "C76_numbers",
   "src": "ToolsL",
   "lem": "C76_numbers_lem",
   "ex": [
    [
     "ToolsE",
     "C76_numbers_ex"
    ]
   ],
   "doc": "C76.  With all options: each cell gets the number of its coarse cell, shuffled, modulo; the blocks have the sizes\n    asked for; an array holds the same data afterwards, a list is left as it is.",
   "noctx": true
  },
  {
   "thm": "C76_in_place_refuted",
   "src": "ToolsE",
   "lem": "C76_ref",
   "ex": [],
   "doc": "C76 at full strength fails: the array given by the caller is changed.",
   "noctx": true
  },
  {
   "thm": "C77_follow",
   "src": "ToolsL",
   "lem": "C77_lem",
   "ex": [
    [
     "ToolsE",
     "C77_ex"
    ]
   ],
   "doc": "C77.  The vector updated by the scripts tells in which coarse cell of the last level each cell is.",
   "noctx": true
  },
  {
   "thm": "C78_undefined",
   "src": "ToolsL",
   "lem": "C78_lem",
   "ex": [
    [
     "ToolsE",
     "C78_ex"
    ]
   ],
   "doc": "C78.  A good call without lines, with the priorities of the scripts instead of its own: the entry after\n    the last one is read, if the pool starts from one point or the last cell has most boundary faces."
  },
  {
   "thm": "C78_priorities_refuted",
   "src": "ToolsE",
   "lem": "C78_ref",
   "ex": [],
   "doc": "C78 fails: the scripts give one priority less than there are cells.",
   "noctx": true
  }
 ]
}