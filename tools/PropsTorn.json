{
 "file": "PropsTorn",
 "title": "coarse cells torn by the correction (C36, C66)",
 "imports": [
  "Main",
  "Spec",
  "SpecSub",
  "SpecMove",
  "SpecTorn",
  "Inst",
  "ApiE",
  "GrowE",
  "MoveE",
  "TornT",
  "TornE",
  "CountT"
 ],
 "ctx": "{A : Arith} {H : HashOrder}",
 "types": {
  "i": "input",
  "o": "outs"
 },
 "opens": [
  "#[local] Existing Instance qarith | 100.",
  "#[local] Existing Instance ord_id | 100.",
  ""
 ],
 "entries": [
  {
   "thm": "C66_rule_partial",
   "src": "TornT",
   "lem": "C66_rule_lem",
   "ex": [
    [
     "TornE",
     "C66_rule_ex"
    ]
   ],
   "doc": "C66, what the correction does for any threshold.  A cell is left behind in a coarse cell\n    which lost others only if it has no neighbour in another isotropic coarse cell.  The\n    numbers used afterwards are those of the coarse cells which lost no cell, renumbered\n    without gaps, and those of the removed ones in which a cell is left behind.  If there\n    is none of the latter, the numbers have no gaps and the coarse cells are connected; a\n    cell left behind with a number which is given to another coarse cell makes that one\n    disconnected."
  },
  {
   "thm": "C66_touching_partial",
   "src": "TornT",
   "lem": "C66_static_lem",
   "ex": [
    [
     "TornE",
     "C66_static_ex"
    ]
   ],
   "doc": "C66 (and C02, C03), a condition on the result without correction: in each coarse cell to\n    correct all cells, or none, have a neighbour in another isotropic coarse cell.  This is\n    so for single cells."
  },
  {
   "thm": "C66_torn_refuted",
   "src": "TornE",
   "lem": "C66_ref",
   "ex": [],
   "noctx": true,
   "doc": "C66 is false: ten cells and a threshold of two."
  },
  {
   "thm": "C36_counter_after_correction_partial",
   "src": "CountT",
   "lem": "C36_after_lem",
   "ex": [
    [
     "TornE",
     "C66_static_ex"
    ]
   ],
   "doc": "C36 after the correction, for any threshold.  The counter is still the number of coarse\n    cells before it.  Where no coarse cell is torn, it is therefore right exactly if the\n    correction changed nothing.  Missing: the property itself, false\n    ([C36_number_of_cells_refuted])."
  }
 ]
}