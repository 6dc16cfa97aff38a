{"file":"PropsGrow","title":"how an isotropic coarse cell is built (C40)","imports":["Features","Neigh","Iso","Main","Spec","SpecSub","SpecFeat","SpecAR","SpecBest","SpecPool","SpecGrow","FeatU","GrowR","GrowE","BestE","ApiE","Inst"],
"opens":["#[local] Existing Instance qarith | 100.","#[local] Existing Instance ord_id | 100.",""],
"ctx":"{A : Arith} {H : HashOrder}",
"entries":[
{"thm":"C40_grown_partial","src":"GrowR","lem":"C40_run","ex":[["GrowE","C40_ex"]],
 "doc":"C40.  Every isotropic coarse cell of a call without correction is grown from\n    the seed that the pool gave when only the earlier coarse cells existed.  The\n    free cells around the seed are collected; if there are fewer of them than the\n    goal, they all are in the coarse cell.  Otherwise the best candidate is added,\n    again and again, and the number of cells kept is the best one: highest\n    compactness, then least count of external faces, then the goal, then the largest.\n    Missing: the count of external faces is one too low for every cell\n    ([ext_of]), so that larger coarse cells are favoured."},
{"thm":"C40_external_faces_refuted","src":"GrowE","lem":"C40_ref","noctx":true,
 "doc":"C40 is false with the true number of external faces: on a strip of four cells, three are kept,\n    though two are as compact and have fewer external faces."}
]}
