{
 "file": "PropsRenum",
 "title": "the numbers of the cells (C60)",
 "imports": [
  "Main",
  "Spec",
  "SpecSub",
  "SpecFeat",
  "SpecHash",
  "SpecMove",
  "SpecFeed",
  "SpecWhole",
  "SpecRenum",
  "Inst",
  "ApiE",
  "UseE",
  "RenumU",
  "RenumE",
  "RenumF"
 ],
 "ctx": "{A : Arith} {H : HashOrder}",
 "opens": [
  "#[local] Existing Instance qarith | 100.",
  "#[local] Existing Instance ord_id | 100.",
  ""
 ],
 "entries": [
  {
   "thm": "C60_numbering_partial",
   "src": "RenumU",
   "lem": "C60_lem",
   "ex": [
    [
     "RenumE",
     "C60_ex"
    ]
   ],
   "noctx": true,
   "doc": "C60, the part that holds.  Numbering the cells otherwise leads to the same coarse\n    cells, with the same numbers, as long as cells of equal priority keep their\n    relative order and, with the neighbourhood pools (orders 1 and 11), cells with\n    different numbers of boundary faces too.  Calls with lines: [C60_lines_partial].\n    Missing: corrections\n    that dissolve coarse cells of more than one fine cell, and the renumberings for\n    which it is false; it is false for both (below)."
  },
  {
   "thm": "C60_levels_refuted",
   "src": "RenumE",
   "lem": "numbers_refuted",
   "ex": [],
   "noctx": true,
   "doc": "C60 is false with a neighbourhood pool, even if all the priorities differ: when\n    its queues are empty, the next level is that of the free cell with the lowest\n    number.  Cells 3 and 4 are put together by the first call; by the second one\n    the cells called 3 and 4 are put together, which are cells 5 and 4."
  },
  {
   "thm": "C60_ties_refuted",
   "src": "RenumE",
   "lem": "ties_refuted",
   "ex": [],
   "noctx": true,
   "doc": "C60 is false if priorities are equal: the lower number is preferred."
  },
  {
   "thm": "C60_correction_refuted",
   "src": "RenumF",
   "lem": "larger_refuted",
   "ex": [],
   "noctx": true,
   "doc": "C60 is false if coarse cells of two cells are corrected, even if all the priorities\n    differ: cell 0 goes to another coarse cell."
  }
 ]
}