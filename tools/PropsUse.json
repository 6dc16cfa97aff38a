{"file":"PropsUse","title":"which data of a call matter (C52, C53)","imports":["Main","Spec","SpecUse","Inst","ApiE","UseT","UseU","UseE"],
"ctx":"{A : Arith} {H : HashOrder}",
"opens": ["#[local] Existing Instance qarith | 100.", "#[local] Existing Instance ord_id | 100.", ""],
"entries":[
{"thm":"C52_order_only","src":"UseT","lem":"C52_lem","ex":[["UseE","C52_ex"]],"doc":"C52.  Priorities in the same order give the same outcome and the same\n    outputs, whatever the call."},
{"thm":"C52_conditions_needed","src":"UseE","lem":"C52_needed_lem","noctx":true,"doc":"C52.  With a one-point seeds pool the comparison with the smallest positive\n    weight matters, and the order of the priorities does matter."},
{"thm":"C53_boundary_faces","src":"UseU","lem":"C53_bnd_lem","ex":[["UseE","C53_bnd_ex"]],"doc":"C53.  Numbers of boundary faces above the dimension count as the dimension."},
{"thm":"C53_anisotropy_off","src":"UseU","lem":"C53_off_lem","ex":[["UseE","C53_off_ex"]],"doc":"C53.  Without anisotropy none of the anisotropic arguments matters, and the\n    vectors of lines are left as they are."},
{"thm":"C53_lines_given","src":"UseU","lem":"C53_given_lem","ex":[["UseE","C53_given_ex"]],"doc":"C53.  If the lines are not to be built, the compliant cells, the threshold,\n    the cell coupling and the imposed direction do not matter."},
{"thm":"C53_threshold_without_correction","src":"UseU","lem":"C53_thr_lem","ex":[["UseE","C53_thr_ex"]],"doc":"C53.  Without correction the threshold of the correction does not matter."},
{"thm":"C53_threshold_clipped","src":"UseU","lem":"C53_clip_lem","ex":[["UseE","C53_clip_ex"]],"doc":"C53.  All thresholds which reach the minimal cardinality are equivalent."},
{"thm":"C53_neighbourhood_codes","src":"UseU","lem":"C53_nbh_lem","ex":[["UseE","C53_nbh_ex"]],"doc":"C53.  All the codes of the neighbourhood but 0 are equivalent."},
{"thm":"C53_coupling_codes","src":"UseU","lem":"C53_coupling_lem","ex":[["UseE","C53_coupling_ex"]],"doc":"C53.  All the codes of the cell coupling but 1 are equivalent."},
{"thm":"C53_previous_contents","src":"UseU","lem":"C53_out_lem","ex":[["UseE","C53_out_ex"]],"doc":"C53.  The previous contents of the output vector do not matter."}]}
