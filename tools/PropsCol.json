{
 "file": "PropsCol",
 "title": "columns of anisotropic cells (C69)",
 "imports": ["Main","Spec","SpecSub","SpecFeat","SpecLine","SpecGrid","SpecCol","LineT","ColT","ColG","ColE","GridE","ApiE","Inst"],
 "opens": ["#[local] Existing Instance qarith | 100.","#[local] Existing Instance ord_id | 100.",""],
 "ctx": "{A : Arith} {H : HashOrder}",
 "types": {"i":"input","o":"outs","cols":"list (list nat)","size":"nat → nat","co":"nat → nat → nat","r":"outs","e":"res unit","N":"W → Prop"},
 "entries": [
  {"thm":"C69_columns","src":"ColT","lem":"C69_lem","noctx":true,"ex":[["ColE","C69_ex"]],
   "doc":"C69.  If the anisotropic cells form columns, the lines which are built are these columns,\n    and each of them is cut into coarse cells of two cells, starting from its end with more boundary\n    faces; an odd cell joins the last pair or is left to the isotropic part."},
  {"thm":"C69_stretched_grid","src":"ColG","lem":"C69_grid_lem","noctx":true,"ex":[["ColE","C69_ex"]],
   "doc":"C69.  The coarse cells of a grid stretched in a direction with an even number of cells are\n    its pairs of cells in this direction: the grid is only coarsened across the layer."}
 ]
}
