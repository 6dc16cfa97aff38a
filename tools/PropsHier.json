{
 "file": "PropsHier",
 "title": "levels of regular grids (C70)",
 "imports": ["Main","UtilM","Spec","SpecSub","SpecGrid","SpecChain","SpecHier","HierT","HierE","GridE","ApiE","Inst"],
 "opens": ["#[local] Existing Instance qarith | 100.","#[local] Existing Instance ord_id | 100.",""],
 "ctx": "{A : Arith} {H : HashOrder}",
 "types": {"i":"input","o":"outs","size":"nat → nat","co":"nat → nat → nat"},
 "entries": [
  {"thm":"C70_levels","src":"HierT","lem":"C70_blocks_lem","ex":[["HierE","C70_ex"]],
   "doc":"C70.  Any number of levels on a regular grid whose sizes are divisible by the right power of\n    two: the coarse cells after [m] levels are the blocks of [2 ^ m] cells in each direction, and the\n    last coarse mesh is a regular grid again."},
  {"thm":"C70_coordinates","src":"HierT","lem":"C70_lem","ex":[["HierE","C70_ex"]],
   "doc":"C70.  The coordinates of the coarse cell which contains a cell are those of the cell divided\n    by [2 ^ m]."}
 ]
}
