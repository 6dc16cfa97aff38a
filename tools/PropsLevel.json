{
 "file": "PropsLevel",
 "title": "Levels of the example scripts (C81)",
 "imports": [
  "Lib",
  "ApiP",
  "ApiT",
  "UtilM",
  "Spec",
  "SpecCoarse",
  "SpecHier",
  "SpecChain",
  "SpecTools",
  "SpecLevel",
  "ToolsM",
  "LevelM",
  "CoarseT",
  "CoarseU",
  "ChainT",
  "ToolsT",
  "ToolsC",
  "ToolsU",
  "LevelT",
  "Inst",
  "ApiE",
  "ChainE",
  "LevelE"
 ],
 "opens": [
  "From Coq Require Import QArith Qcanon.",
  "#[local] Open Scope Z_scope.",
  "#[local] Open Scope nat_scope.",
  "#[local] Existing Instance qarith | 100.",
  "#[local] Existing Instance ord_id | 100.",
  ""
 ],
 "ctx": "{A : Arith} {H : HashOrder}",
 "types": {},
 "entries": [
  {
   "thm": "C81_levels_partial",
   "src": "LevelT",
   "lem": "C81_lem",
   "ex": [
    [
     "LevelE",
     "C81_ex"
    ]
   ],
   "doc": "C81.  With one comparable priority for each cell, the loop of the scripts ends normally: each level covers the\n    cells of the previous one, and what is drawn is the coarse cell of each cell over all levels."
  },
  {
   "thm": "C81_priorities_refuted",
   "src": "LevelE",
   "lem": "C81_ref",
   "ex": [],
   "doc": "C81 at full strength fails: with the priorities of the scripts, one too few, a later call is undefined.",
   "noctx": true
  },
  {
   "thm": "C81_isolated_refuted",
   "src": "LevelE",
   "lem": "C81_iso",
   "ex": [],
   "doc": "C81 at full strength fails: with cells without neighbours, the coarse graph is not built.",
   "noctx": true
  }
 ]
}