{"file":"PropsSub","title":"connectivity and subgraphs (C30, C31)","imports":["Graph","Subgraph","Spec","SpecSub","GraphP","ConnT","SubT","SubE","LeafT","LeafE","Inst"],
"opens":["#[local] Existing Instance qarith | 100.","#[local] Existing Instance ord_id | 100.",""],
"ctx":"{A : Arith} {H : HashOrder}",
"types":{"g":"graph","sg":"subg","sg'":"subg","s":"gset nat","k":"nat"},
"entries":[
{"thm":"C30_connectivity_partial","src":"ConnT","lem":"C30_pos","ctx":" ","ex":[["SubE","C30_ex"]],
 "doc":"C30.  For a graph of one cell or with at least one face: the answers of any\n    number of successive calls tell whether the graph is connected.  Missing: graphs\n    of several cells without any face, see the next theorems."},
{"thm":"C30_no_face_undefined","src":"ConnT","lem":"C30_neg","ctx":" ","ex":[["SubE","C30_ref"]],
 "doc":"C30.  Several cells and no face: undefined behaviour, always."},
{"thm":"C30_connectivity_refuted","src":"SubE","lem":"C30_ref","noctx":true,
 "doc":"C30 is false for a graph without any face."},
{"thm":"C31_constructor","src":"SubT","lem":"C31_cons","ex":[["SubE","C31_ex"]],
 "doc":"C31.  The constructor builds the induced subgraph, with its compactness."},
{"thm":"C31_insert_partial","src":"SubT","lem":"C31_ins_pos","ctx":"{A : Arith}","ex":[["SubE","C31_iso_ex"]],
 "doc":"C31.  Insertion of a cell without any neighbour in the mesh.  Missing: all other\n    cells, see the next theorem."},
{"thm":"C31_insert_never_right","src":"SubT","lem":"C31_ins_neg","ctx":"{A : Arith}","ex":[["SubE","C31_ins"]],
 "doc":"C31.  Inserting a cell which has a neighbour, inside the subgraph or not, never\n    gives the induced subgraph."},
{"thm":"C31_insert_refuted","src":"SubE","lem":"C31_ins_ref","noctx":true,
 "doc":"C31 is false for the insertion of a cell next to the subgraph."},
{"thm":"C31_remove_partial","src":"SubT","lem":"C31_rem_pos","ctx":"{A : Arith}","ex":[["SubE","C31_iso_ex"]],
 "doc":"C31.  Removal of a cell without neighbour in the subgraph.  Missing: cells with\n    neighbours, see the next theorem."},
{"thm":"C31_remove_leaf_partial","src":"LeafT","lem":"C31_leaf","ctx":"{A : Arith}","ex":[["LeafE","C31_leaf_ex"]],
 "doc":"C31.  Removal of a cell with one neighbour in the subgraph: right exactly when the\n    cell is the last one listed by its neighbour or a later row is not empty; otherwise\n    undefined behaviour.  Missing: cells with several neighbours, see the next theorem."},
{"thm":"C31_remove_refuted","src":"SubE","lem":"C31_rem_ref","noctx":true,"ex":[["SubE","C31_tri_ex"]],
 "doc":"C31 is false for the removal of a leaf: undefined behaviour.  The example shows\n    a wrong result for a triangle."}
]}
