{"file":"PropsHash","title":"independence of hash iteration orders (C26)","imports":["Main","Spec","SpecHash","HashW","HashE","ApiE","Inst"],
"opens":["#[local] Existing Instance qarith | 100.",""],
"ctx":"",
"entries":[
{"thm":"C26_order_independent_partial","src":"HashW","lem":"C26_lem","ex":[["HashE","C26_ex"]],
 "doc":"C26, when there is no correction or only single cells are corrected: a\n    well-formed call gives the same outputs and the same outcome whatever the\n    order in which unordered containers are iterated.  If the aspect ratio is\n    computed from distances, the extremum of a set of distances must be unique:\n    [dist_order], which holds for every totally ordered number type and, always,\n    for doubles (C59).  Missing: larger thresholds, for which the property is\n    false (below)."},
{"thm":"C26_order_refuted","src":"HashE","lem":"C26_ref","noctx":true,
 "doc":"C26 is false with a threshold of two: the cells of a coarse cell which is\n    corrected cell by cell are visited in the order of an [unordered_map], and\n    two orders give different coarse cells."}
]}
