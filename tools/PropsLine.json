{"file":"PropsLine","title":"anisotropic cells and lines (C42-C44)","imports":["Aniso","TagM","Main","Spec","SpecSub","SpecFeat","SpecLine","SpecHash","ApiT","LineT","LineE","ApiE","Inst"],
"opens":["#[local] Existing Instance qarith | 100.","#[local] Existing Instance ord_id | 100.",""],
"ctx":"{A : Arith} {H : HashOrder}",
"entries":[
{"thm":"C42_line_direction","src":"LineT","lem":"C42_lem","ex":[["LineE","C42_ex"]],
 "doc":"C42.  Each line is agglomerated from the end which has more boundary faces,\n    then the higher priority, then the lower index: the pieces follow each other\n    from that end and are the coarse cells of the exported line, in this order.\n    This holds with any limit on the lengths of lines."},
{"thm":"C43_tagging_partial","src":"LineT","lem":"C43_lem","ex":[["LineE","C43_ex"]],
 "doc":"C43.  Tagging gives the compliant cells whose ratio of extreme face weights\n    reaches the threshold (all of them if the threshold is negative), by\n    decreasing priority, with the couplings used to build lines.\n    Missing: the documented effect of the value 3 of [preserving], which has none\n    ([kept]; see the next theorem)."},
{"thm":"C43_preserving_refuted","src":"LineE","lem":"C43_ref","noctx":true,
 "doc":"C43 is false in full: with the value 3 of [preserving], a cell with neither\n    six faces, nor five and the boundary, is tagged."},
{"thm":"C44_built_lines_rule","src":"LineT","lem":"C44_lem","ex":[["LineE","C44_ex"]],
 "doc":"C44.  The lines built are those of the documented rule, and there is only one\n    way to build lines by it.  From each seed in turn (anisotropic cells by\n    decreasing priority) the line goes on to the most strongly coupled free\n    neighbour (the most aligned one if the direction is forced), then on the\n    other side of the seed; a cell alone is dropped."}
]}
