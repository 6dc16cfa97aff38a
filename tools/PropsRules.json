{"file":"PropsRules","title":"the rules leave no choice (C51)","imports":["Features","Neigh","Iso","Main","Spec","SpecSub","SpecFeat","SpecAR","SpecBest","SpecPool","SpecGrow","SpecFeed","SpecLine","SpecMove","SpecRules","GraphP","GrowE","FeedE","MoveE","BestE","ApiE","Inst","RuleT","RuleE"],
"ctx":"{A : Arith} {H : HashOrder}",
"opens": ["#[local] Existing Instance qarith | 100.", "#[local] Existing Instance ord_id | 100.", ""],
"entries":[
{"thm":"C51_only_result","src":"RuleT","lem":"C51_lem","ex":[["RuleE","C51_ex"]],"doc":"C51.  Among the vectors which have the anisotropic coarse cells of the\n    result, the result of a call without correction is the only one which\n    follows the rules of C45."},
{"thm":"C51_sequence","src":"RuleT","lem":"C51_sequence_lem","ex":[["RuleE","C51_sequence_ex"]],"doc":"C51.  The rules determine the queues at the start and the whole sequence of\n    coarse cells."},
{"thm":"C51_corrected","src":"RuleT","lem":"C51_corrected_lem","ex":[["RuleE","C51_corrected_ex"]],"doc":"C51.  If only single cells are corrected, the rules of C41 determine the\n    corrected result."},
{"thm":"C51_choice_left","src":"RuleE","lem":"C51_choice_lem","noctx":true,"doc":"C51.  If coarse cells of two cells are corrected, the rules of C41 may allow\n    several results, as the order of the cells of a coarse cell matters."}]}
