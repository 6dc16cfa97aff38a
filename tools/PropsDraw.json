{
 "file": "PropsDraw",
 "title": "What the example scripts draw and their priorities (C82, C83)",
 "imports": [
  "Lib",
  "ApiP",
  "ApiT",
  "UtilM",
  "Spec",
  "SpecLine",
  "SpecTools",
  "ToolsM",
  "DrawM",
  "ToolsT",
  "ToolsC",
  "ToolsL",
  "DrawT",
  "Inst",
  "ApiE",
  "GrowE",
  "ToolsE",
  "Double",
  "DoubleE",
  "SpecNum",
  "SpecBin",
  "RaeT",
  "DrawE"
 ],
 "opens": [
  "From Coq Require Import SpecFloat Sorted QArith Qcanon.",
  "#[local] Open Scope Z_scope.",
  "#[local] Open Scope nat_scope.",
  "#[local] Existing Instance qarith | 100.",
  "#[local] Existing Instance ord_id | 100.",
  ""
 ],
 "ctx": "{A : Arith} {H : HashOrder}",
 "types": {},
 "entries": [
  {
   "thm": "C82_drawn_lines",
   "src": "DrawT",
   "lem": "C82_lem",
   "ex": [
    [
     "DrawE",
     "C82_ex"
    ]
   ],
   "doc": "C82.  Without a limit on the lines, what is drawn for each line is increasing and holds exactly the cells of that line,\n    but its last one, once turned, when the line is odd and odd lines are not allowed."
  },
  {
   "thm": "C82_limited_lines",
   "src": "DrawT",
   "lem": "C82_limit_lem",
   "ex": [
    [
     "DrawE",
     "C82_limit_ex"
    ]
   ],
   "doc": "C82.  With a limit, the cells drawn are the first K ones of each line, but the last of them when K is odd and odd lines\n    are not allowed, or K is one; K is the limit or the length, or one more than an even limit (C12)."
  },
  {
   "thm": "C83_priorities_partial",
   "src": "RaeT",
   "lem": "C83_lem",
   "ex": [
    [
     "DrawE",
     "C83_ex"
    ]
   ],
   "doc": "C83.  In double precision, cells closer to the wall have strictly higher priorities and cells at the same distance\n    the same one; cells which are not reached have an infinite one.",
   "ctx": "(sum : list spec_float → spec_float)"
  },
  {
   "thm": "C83_refuted",
   "src": "DrawE",
   "lem": "C83_ref",
   "ex": [],
   "noctx": true,
   "doc": "C83 at full strength fails: a cell without a path to the wall has a higher priority than the cells of the wall."
  }
 ]
}