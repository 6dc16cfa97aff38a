{
 "file": "PropsLay",
 "title": "lines over several levels (C71)",
 "imports": [
  "Base",
  "Main",
  "UtilM",
  "Spec",
  "SpecLine",
  "SpecSub",
  "SpecGrid",
  "SpecCol",
  "SpecChain",
  "SpecHier",
  "SpecLay",
  "LineT",
  "LayT",
  "LayE",
  "ColE",
  "GridE",
  "ApiE",
  "Inst"
 ],
 "opens": [
  "#[local] Existing Instance qarith | 100.",
  "#[local] Existing Instance ord_id | 100.",
  ""
 ],
 "ctx": "{A : Arith} {H : HashOrder}",
 "types": {
  "i": "input",
  "o": "outs",
  "size": "nat → nat",
  "co": "nat → nat → nat",
  "cols": "list (list nat)",
  "r": "outs",
  "e": "res unit",
  "N": "W → Prop"
 },
 "entries": [
  {
   "thm": "C71_given_lines",
   "src": "LayT",
   "lem": "C71_lem",
   "ex": [
    [
     "LayE",
     "C71_given_ex"
    ]
   ],
   "doc": "C71.  A given line of [2 ^ m * h] cells: after [m] levels it is a line of [h] coarse cells, each\n    made of [2 ^ m] consecutive cells of the line, and of nothing else."
  },
  {
   "thm": "C71_columns",
   "src": "LayT",
   "lem": "C71_columns_lem",
   "ex": [
    [
     "LayE",
     "C71_ex"
    ]
   ],
   "doc": "C71.  The same when the lines are found by the first level in a mesh cut into columns."
  },
  {
   "thm": "C71_stretched_grid",
   "src": "LayT",
   "lem": "C71_grid_lem",
   "ex": [
    [
     "LayE",
     "C71_ex"
    ]
   ],
   "doc": "C71.  On a stretched grid, [m] levels divide the first coordinate by [2 ^ m] and leave the others\n    as they are."
  }
 ]
}