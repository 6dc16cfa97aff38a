{"file":"PropsChecks","title":"the checks of the arguments (C08, C33-C35)","imports":["CheckT","CheckE"],
"opens":["#[local] Existing Instance qarith | 100.","#[local] Existing Instance ord_id | 100.",""],
"ctx":"{A : Arith} {H : HashOrder}",
"types":{"i":"input","o":"outs","r":"outs","k":"chk","ar":"Z","s":"Z","bnd":"list Z"},
"entries":[
{"thm":"C08_rejected_exactly","src":"CheckT","lem":"C08_lem","ex":[["CheckE","C08_ex"]],
 "doc":"C08.  For any arguments the call throws [invalid_argument] for a reason other\n    than the aspect ratio exactly when this is the first thing wrong."},
{"thm":"C08_aspect_ratio","src":"CheckT","lem":"C08_ar_lem","ex":[["CheckE","C08_ar_ex"],["CheckE","C08_first_ex"]],
 "doc":"C08.  The aspect ratio is rejected only when it is unknown and everything else\n    is right; conversely an unknown aspect ratio is rejected unless the call\n    fails before the aspect ratio is looked at, in the same way for any\n    aspect ratio (which does not happen for well-formed calls, see next)."},
{"thm":"C08_aspect_ratio_good_call","src":"CheckT","lem":"C08_good_lem","ex":[["CheckE","C08_ar_ex"]],
 "doc":"C08.  A call well-formed but for its aspect ratio is rejected for it."},
{"thm":"C33_outputs_unchanged_partial","src":"CheckT","lem":"C33_lem","ex":[["CheckE","C33_ex"]],
 "doc":"C33.  A rejected call leaves [fc_to_cc] unchanged, and all the output arguments\n    when the reason is not the aspect ratio or when there is no anisotropy.\n    Missing: the situation of the next theorem."},
{"thm":"C33_outputs_unchanged_refuted","src":"CheckE","lem":"C33_ref","noctx":true,
 "doc":"C33 is false with anisotropy and an unknown aspect ratio: the given lines have\n    been overwritten when the exception is thrown."},
{"thm":"C34_boundary_counts_clipped","src":"CheckT","lem":"C34_lem","ex":[["CheckE","C34_ex"]],
 "doc":"C34.  Two calls whose boundary counts are the same once cut down to the\n    dimension have the same outcome."},
{"thm":"C35_threshold_clipped","src":"CheckT","lem":"C35_lem","ex":[["CheckE","C35_ex"]],
 "doc":"C35.  Any threshold not less than [min_card] acts as [min_card - 1]."}
]}
