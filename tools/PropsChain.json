{"file":"PropsChain","title":"chaining several levels (C32)","imports":["Main","UtilM","Spec","SpecChain","ChainT","ChainE","ApiE","Inst"],
"opens":["#[local] Existing Instance qarith | 100.","#[local] Existing Instance ord_id | 100.",""],
"ctx":"{A : Arith} {H : HashOrder}",
"entries":[
{"thm":"C32_levels_partial","src":"ChainT","lem":"C32_lem","ex":[["ChainE","C32_ex"]],
 "doc":"C32, for a mesh in one piece, when at most single cells are corrected, with\n    totally comparable weights and no odd limit for the length of lines: any\n    number of levels can be chained, the lines handed on are paths of the coarse\n    graph, and the next call is well-formed again.  Missing: meshes in several\n    pieces and larger thresholds, for which the property is false (below)."},
{"thm":"C32_levels_refuted","src":"ChainE","lem":"C32_ref","noctx":true,
 "doc":"C32 is false when cells have no neighbours: the first level succeeds, but\n    building its coarse graph is undefined (an edge weight is read past the end)."},
{"thm":"C32_threshold_refuted","src":"ChainE","lem":"C32_thresh_ref","noctx":true,
 "doc":"C32 is false with a threshold of two, even for a mesh in one piece: the\n    coarse graph of the first level has a cell without fine cells and with\n    [INT_MIN] boundary faces, and the second level is undefined."}
]}
