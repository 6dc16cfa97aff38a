{
 "file": "PropsTally",
 "title": "how many coarse cells a line gives (C85)",
 "imports": ["Main","Spec","SpecSub","SpecFeat","SpecHash","SpecLine","SpecMove","SpecWhole","Inst","ApiE","PieceE","PieceM","TallyT","TallyE"],
 "ctx": "{A : Arith} {H : HashOrder}",
 "opens": [
  "#[local] Existing Instance qarith | 100.",
  "#[local] Existing Instance ord_id | 100.",
  ""
 ],
 "entries": [
  {
   "thm": "C85_half_of_each_line", "src": "TallyT", "lem": "C85_lem", "ex": [["TallyE","C85_ex"]], "noctx": true,
   "doc": "C85.  The lines which are returned are those of at least two cells among the lines\n    given, in the same order, or those which are built; each one has half as many coarse\n    cells as the cells of the line which are used, rounded down.  All cells are used\n    unless there is a limit ([used])."
  }
 ]
}
