{"file":"PropsGeo","title":"moving the mesh and changing units (C55, C56)","imports":["Main","Spec","SpecFeat","SpecGeo","Inst","ApiE","GeoU","GeoW","GeoE"],
"ctx":"{A : Arith} {H : HashOrder}",
"opens": ["#[local] Existing Instance qarith | 100.", "#[local] Existing Instance ord_id | 100.", ""],
"entries":[
{"thm":"C55_differences_partial","src":"GeoU","lem":"differences","ex":[["GeoE","C55_differences_ex"]],"doc":"C55.  If the vectors between the centres stay the same, so do outcome and\n    outputs of any call.  Missing: aspect ratios 7 and 8."},
{"thm":"C55_translation_partial","src":"GeoU","lem":"translation","ex":[["GeoE","C55_translation_ex"]],"doc":"C55.  Moving all the centres by one vector changes nothing, if subtraction is\n    exact.  Missing: aspect ratios 7 and 8."},
{"thm":"C55_rigid_motion_partial","src":"GeoU","lem":"distances","ex":[["GeoE","C55_distances_ex"]],"doc":"C55.  If the distances between the centres stay the same (rotations,\n    reflections), so do outcome and outputs.  Missing: aspect ratios 7 and 8, and\n    lines to be built."},
{"thm":"C55_centres_unused","src":"GeoU","lem":"centres_unused","ex":[["GeoE","C55_unused_ex"]],"doc":"C55.  For the aspect ratios which do not look at the centres and without\n    lines to be built the coordinates do not matter."},
{"thm":"C55_translation_refuted","src":"GeoE","lem":"translation_refuted","noctx":true,"doc":"C55 does not hold for aspect ratio 7: on three cells the choice depends on the\n    distance of the mesh from the origin."},
{"thm":"C56_units_partial","src":"GeoW","lem":"units","ex":[["GeoE","C56_ex"],["GeoE","C56_force_ex"]],"doc":"C56.  Multiplying all weights of the faces by u, all volumes by v and all\n    coordinates by l changes nothing.  Missing: aspect ratios 7 and 8."},
{"thm":"C56_units_refuted","src":"GeoE","lem":"units_refuted","noctx":true,"doc":"C56 does not hold for aspect ratio 7: on three cells the choice depends on the\n    unit of the volumes."}]}
