{
 "file": "PropsDouble",
 "title": "double precision (C59, C58)",
 "imports": [
  "Main",
  "Spec",
  "SpecSub",
  "SpecFeat",
  "SpecHash",
  "SpecReord",
  "Inst",
  "Double",
  "SpecDouble",
  "DoubleT",
  "DoubleE"
 ],
 "ctx": "(sum : list spec_float \u2192 spec_float)",
 "opens": [
  "#[local] Existing Instance dbl | 10.",
  "#[local] Existing Instance ord_id | 10.",
  ""
 ],
 "entries": [
  {
   "thm": "C59_double_result",
   "src": "DoubleT",
   "lem": "C59_lem",
   "noctx": true,
   "ex": [
    [
     "DoubleE",
     "C59_ex"
    ]
   ],
   "doc": "C59.  With weights in double precision a call made as documented ends normally\n    and gives each cell a coarse cell, whatever the weights, volumes and centres are;\n    if at most single cells are corrected the coarse cells are numbered without\n    gaps, connected, and the same for every hash order."
  },
  {
   "thm": "C59_double_good_call",
   "src": "DoubleT",
   "lem": "double_good",
   "noctx": true,
   "ex": [
    [
     "DoubleE",
     "double_good_ex"
    ]
   ],
   "doc": "C59.  Such a call is a good call in the sense of the other theorems, so those\n    without laws of arithmetic among their hypotheses hold for it."
  },
  {
   "thm": "C58_double_refuted",
   "src": "DoubleE",
   "lem": "double_face_order_refuted",
   "ex": [],
   "noctx": true,
   "doc": "C58 is false in double precision even without lines: sums of weights are\n    rounded, and depend on the order of the faces."
  }
 ]
}