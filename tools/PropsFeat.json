{"file":"PropsFeat","title":"features and aspect ratios (C28, C39)","imports":["Features","Spec","SpecSub","SpecFeat","SpecAR","FeatU","FeatE","Inst"],
"opens":["#[local] Existing Instance qarith | 100.","#[local] Existing Instance ord_id | 100.",""],
"ctx":"{A : Arith} {H : HashOrder}",
"entries":[
{"thm":"C28_features","src":"FeatU","lem":"C28_features","ex":[["FeatE","C28_ex"]],
 "doc":"C28.  The features obtained by adding cells one at a time are those of the\n    resulting set of cells, each aspect ratio keeping the ones it needs."},
{"thm":"C28_order","src":"FeatU","lem":"C28_order","ex":[["FeatE","C28_ex"]],
 "doc":"C28.  They do not depend on the order in which the cells are added."},
{"thm":"C39_aspect_ratio_partial","src":"FeatU","lem":"C39_ratio","ex":[["FeatE","C39_ex"],["FeatE","C39_extremes"],["FeatE","C39_minmax_ex"]],
 "doc":"C39.  The aspect ratio given to a candidate is that of the cell obtained by\n    adding it.  Missing: the point from which the two last kinds take distances is\n    the sum of the centres weighted by the volumes divided by the number of cells,\n    instead of the measure; and the ratio of the diameter to the minimal edge is the\n    squared diameter for two cells."},
{"thm":"C39_barycentre_refuted","src":"FeatE","lem":"C39_bary_ref","noctx":true,
 "doc":"C39 is false for the maximal distance from the barycentre over the radius."},
{"thm":"C39_min_edge_refuted","src":"FeatE","lem":"C39_edge_ref","noctx":true,
 "doc":"C39 is false for the ratio of the diameter to the minimal edge of two cells."}
]}
