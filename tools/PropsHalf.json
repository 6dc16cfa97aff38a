{
 "file": "PropsHalf",
 "title": "the number of coarse cells (C61)",
 "imports": [
  "Main",
  "UtilM",
  "Spec",
  "SpecChain",
  "HalfT",
  "HalfE",
  "ApiE",
  "Inst",
  "SpecSub",
  "SpecMove",
  "MoveE",
  "HalfU",
  "HalfV"
 ],
 "opens": [
  "#[local] Existing Instance qarith | 100.",
  "#[local] Existing Instance ord_id | 100.",
  ""
 ],
 "ctx": "{A : Arith} {H : HashOrder}",
 "entries": [
  {
   "thm": "C61_at_most_half_partial",
   "src": "HalfT",
   "lem": "C61_half_lem",
   "ex": [
    [
     "HalfE",
     "C61_half_ex"
    ]
   ],
   "doc": "C61, when single cells are corrected, without lines: if each cell has a\n    neighbour, there are at most half as many coarse cells as cells.  Missing:\n    calls without correction or with lines, for which it is false (below); larger\n    thresholds: [C61_any_threshold]."
  },
  {
   "thm": "C61_any_threshold",
   "src": "HalfU",
   "lem": "C61_any_lem",
   "ex": [
    [
     "HalfV",
     "C61_any_ex"
    ]
   ],
   "doc": "C61 for corrections with any threshold, without lines: at most half as many numbers\n    are in use as there are cells, although they may have gaps then."
  },
  {
   "thm": "C61_any_threshold_lines",
   "src": "HalfU",
   "lem": "C61_alone_any_lem",
   "ex": [
    [
     "HalfV",
     "C61_alone_any_ex"
    ]
   ],
   "doc": "C61 for corrections with any threshold, with lines: the cells [L] all of whose\n    neighbours are in coarse cells of lines are the only ones to be added."
  },
  {
   "thm": "C61_cells_left_alone",
   "src": "HalfT",
   "lem": "C61_count_lem",
   "ex": [
    [
     "HalfE",
     "C61_count_ex"
    ]
   ],
   "doc": "C61 with lines: the cells [L] all of whose neighbours are in coarse cells\n    of lines are the only ones to be added to the count."
  },
  {
   "thm": "C61_levels",
   "src": "HalfT",
   "lem": "C61_levels_lem",
   "ex": [
    [
     "HalfE",
     "C61_levels_ex"
    ]
   ],
   "doc": "C61 for several levels of a mesh in one piece: [k] levels divide the number\n    of cells by at least [2 ^ k] until one cell is left, and a mesh of fewer than\n    [2 ^ (k + 1)] cells becomes one cell."
  },
  {
   "thm": "C61_not_too_few",
   "src": "HalfT",
   "lem": "C61_few_lem",
   "ex": [
    [
     "HalfE",
     "C61_few_ex"
    ]
   ],
   "doc": "C61 in the other direction: without correction and lines, the cells fit in\n    the coarse cells with the maximal cardinal each."
  },
  {
   "thm": "C61_uncorrected_refuted",
   "src": "HalfE",
   "lem": "C61_uncorrected_ref",
   "noctx": true,
   "doc": "C61 is false without the correction."
  },
  {
   "thm": "C61_lines_refuted",
   "src": "HalfE",
   "lem": "C61_lines_ref",
   "noctx": true,
   "doc": "C61 is false with lines, even those which are paths of the mesh."
  },
  {
   "thm": "C61_not_too_few_refuted",
   "src": "HalfE",
   "lem": "C61_few_ref",
   "noctx": true,
   "doc": "The other direction is false with the correction."
  }
 ]
}