{"file":"PropsWhole","title":"the whole result of a call, without any function of the model (C57)","imports":["Main","Spec","SpecSub","SpecFeat","SpecHash","SpecMove","SpecFeed","SpecWhole","Inst","ApiE","GrowE","FeedE","MoveE","WholeU","WholeE"],
"ctx":"{A : Arith} {H : HashOrder}",
"opens": ["#[local] Existing Instance qarith | 100.", "#[local] Existing Instance ord_id | 100.", ""],
"entries":[
{"thm":"C57_whole_result","src":"WholeU","lem":"C57_lem","ex":[["WholeE","C57_ex"],["WholeE","C57_built_ex"],["WholeE","C57_extremes_ex"]],"doc":"C57.  The call ends normally and its outputs are right, [result_right] being\n    said without any function of the model; no other outputs are right unless the\n    correction removes cells of more than one fine cell."}]}
