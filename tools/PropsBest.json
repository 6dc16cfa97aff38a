{"file":"PropsBest","title":"the next cell of a growing coarse cell (C38)","imports":["Features","Neigh","Iso","Spec","SpecSub","SpecFeat","SpecAR","SpecBest","FeatU","BestT","BestE","FeatE","ApiE","SearchT","Inst"],
"opens":["#[local] Existing Instance qarith | 100.","#[local] Existing Instance ord_id | 100.",""],
"ctx":"{A : Arith} {H : HashOrder}",
"entries":[
{"thm":"C38_best_candidate","src":"BestT","lem":"C38_best","ex":[["BestE","C38_ex"]],
 "doc":"C38, biconnected agglomerator.  The chosen candidate shares a face with the\n    coarse cell and is the first of the best ones by number of faces, then order,\n    then aspect ratio; the features returned are those with the chosen cell."},
{"thm":"C38_look_ahead_partial","src":"BestT","lem":"C38_look","ex":[["BestE","C38_ex"]],
 "doc":"C38, iterative agglomerator.  The chosen candidate shares a face with the\n    coarse cell and is the first of the best ones, when each candidate is judged\n    with the cells that could be added after it.  Missing: with look-ahead it need\n    not be among the best ones by its own faces."},
{"thm":"C38_look_ahead_refuted","src":"BestE","lem":"C38_look_ref","noctx":true,
 "doc":"C38 is false of the iterative agglomerator with look-ahead: a candidate\n    sharing fewer faces can be preferred."}
]}
