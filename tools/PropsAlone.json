{
 "file": "PropsAlone",
 "title": "the coarse cells of lines and the isotropic arguments (C84)",
 "imports": [
  "Main",
  "Spec",
  "SpecUse",
  "SpecAlone",
  "Inst",
  "ApiE",
  "UseE",
  "PieceE",
  "PieceM",
  "AloneT",
  "AloneE"
 ],
 "ctx": "{A : Arith} {H : HashOrder}",
 "opens": [
  "#[local] Existing Instance qarith | 100.",
  "#[local] Existing Instance ord_id | 100.",
  ""
 ],
 "entries": [
  {
   "thm": "C84_lines_alone",
   "src": "AloneT",
   "lem": "C84_lem",
   "ex": [
    [
     "AloneE",
     "C84_ex"
    ]
   ],
   "noctx": true,
   "doc": "C84.  Two well-formed calls which differ only by the volumes, the seeds pool, the\n    correction, the cardinalities, the aspect ratio, the threshold of the correction,\n    the number of iterations and the neighbourhood: the lines which are returned and\n    the coarse cells of the lines are the same, with the same numbers."
  },
  {
   "thm": "C84_given_lines",
   "src": "AloneT",
   "lem": "C84_given_lem",
   "ex": [
    [
     "AloneE",
     "C84_given_ex"
    ]
   ],
   "noctx": true,
   "doc": "C84 for lines given by the caller: the faces, their weights, the centres, the\n    compliant cells and the hash orders do not matter either."
  }
 ]
}