{
 "file": "PropsReline",
 "title": "the numbers of the cells, calls with lines (C60)",
 "imports": [
  "Main",
  "Spec",
  "SpecSub",
  "SpecFeat",
  "SpecHash",
  "SpecLine",
  "SpecMove",
  "SpecFeed",
  "SpecWhole",
  "SpecRenum",
  "SpecReline",
  "Inst",
  "ApiE",
  "UseE",
  "FeedE",
  "RenumE",
  "RelineU",
  "RelineE"
 ],
 "ctx": "{A : Arith} {H : HashOrder}",
 "opens": [
  "#[local] Existing Instance qarith | 100.",
  "#[local] Existing Instance ord_id | 100.",
  ""
 ],
 "entries": [
  {
   "thm": "C60_lines_partial",
   "src": "RelineU",
   "lem": "C60_lines_lem",
   "ex": [
    [
     "RelineE",
     "C60_lines_ex"
    ]
   ],
   "noctx": true,
   "doc": "C60 for calls with lines, the part that holds.  Numbering the cells otherwise leads\n    to the same coarse cells and the same exported lines, as long as cells of equal\n    priority keep their relative order, the faces of the cells of the lines are listed\n    in the same order, and, if the program builds the lines, the neighbours of a cell\n    keep their relative order.  Lines given by the caller are given with the new\n    numbers.  Missing: corrections that dissolve coarse cells of more than one fine\n    cell, and the renumberings for which it is false (below; [C58_face_order_refuted]\n    shows that the order of the faces counts)."
  },
  {
   "thm": "C60_neighbours_refuted",
   "src": "RelineE",
   "lem": "neighbours_refuted",
   "ex": [],
   "noctx": true,
   "doc": "C60 is false if two neighbours of a cell change places and the lines are built: the\n    lower number is preferred.  Cells 0 and 1 are put together by the first call; by\n    the second one the cells called 0 and 1, which are cells 0 and 2."
  }
 ]
}