{
 "file": "PropsReord",
 "title": "the order in which the faces of a cell are listed (C58)",
 "imports": [
  "Main",
  "Spec",
  "SpecSub",
  "SpecFeat",
  "SpecHash",
  "SpecMove",
  "SpecFeed",
  "SpecWhole",
  "SpecReord",
  "Inst",
  "ApiE",
  "GrowE",
  "FeedE",
  "MoveE",
  "ReordU",
  "ReordV",
  "ReordE"
 ],
 "ctx": "{A : Arith} {H : HashOrder}",
 "opens": [
  "#[local] Existing Instance qarith | 100.",
  "#[local] Existing Instance ord_id | 100.",
  ""
 ],
 "entries": [
  {
   "thm": "C58_face_order_partial",
   "src": "ReordV",
   "lem": "C58_any_lem",
   "ex": [
    [
     "ReordE",
     "C58_ex"
    ],
    [
     "ReordE",
     "C58_larger_ex"
    ]
   ],
   "doc": "C58, the part that holds.  Listing the faces of each cell in another order does\n    not change the outputs, as long as the cells of the lines keep theirs; without\n    lines there is no such condition.  The correction may be on or off, with any\n    threshold.  Missing: the cells of the lines, for which it is false (below).",
   "noctx": true
  },
  {
   "thm": "C58_face_order_refuted",
   "src": "ReordE",
   "lem": "order_of_faces_refuted",
   "ex": [],
   "noctx": true,
   "doc": "C58 is false of the cells of a line: their neighbours wait as seeds in the order\n    in which the faces are listed."
  }
 ]
}