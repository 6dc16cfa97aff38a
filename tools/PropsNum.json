{"file":"PropsNum","title":"lines built with other numbers than exact ones (C43, C44, C62)","imports":["Main","Spec","SpecHash","SpecLine","SpecNum","TagM","ApiT","LineT","Inst","Double","SpecDouble","DoubleT","DoubleE","NumT","NumE"],
"opens":["#[local] Existing Instance dbl | 10.","#[local] Existing Instance ord_id | 10.",""],
"ctx":"{A : Arith} {H : HashOrder}",
"entries":[
{"thm":"C43_numbers_partial","src":"LineT","lem":"C43_numbers_lem","ex":[["NumE","C43_numbers_ex"]],
 "doc":"C43 with an order which is total only on the numbers compared.  Missing, as\n    in [C43_tagging_partial]: the value 3 of [preserving] has no effect."},
{"thm":"C44_numbers","src":"LineT","lem":"C44_numbers_lem","ex":[["NumE","C44_numbers_ex"]],
 "doc":"C44 with an order which is total only on the numbers compared."},
{"thm":"C62_double_tagging","src":"NumT","lem":"C62_tag_lem","noctx":true,"ex":[["NumE","C62_lines_ex"]],
 "doc":"C62.  In double precision the cells tagged are those over the threshold, if no\n    weight of a face is a NaN or a negative zero (and the centres are finite, if the\n    coupling is by distance)."},
{"thm":"C62_double_lines","src":"NumT","lem":"C62_lines_lem","noctx":true,"ex":[["NumE","C62_lines_ex"]],
 "doc":"C62.  Then the lines are those of the documented rule, computed with rounded\n    numbers, and there is only one way to build lines by it."},
{"thm":"C62_negative_zero_refuted","src":"NumE","lem":"C62_zero_ref","noctx":true,
 "doc":"C62 is false with negative zeros: of a cell with faces of weights -0, 0 and 1 the\n    ratio is 1/0 or 1/-0, as the faces are listed."}
]}
