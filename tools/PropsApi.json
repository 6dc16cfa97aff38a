{"file":"PropsApi","title":"the library call (C01-C07, C09-C14, C16, C27, C36)","imports":["SpecLine","ApiT","ApiE"],
"opens":["#[local] Existing Instance qarith | 100.","#[local] Existing Instance ord_id | 100.",""],
"ctx":"{A : Arith} {H : HashOrder}",
"types":{"i":"input","o":"outs","r":"outs","e":"res ()","m":"Z"},
"entries":[
{"thm":"C01_every_cell_once","src":"ApiT","lem":"C01_lem","ex":[["ApiE","C01_ex"]],
 "doc":"C01.  A well-formed call returns normally and gives one identifier to\n    each fine cell."},
{"thm":"C01_one_coarse_cell","src":"ApiT","lem":"C01_cells_lem","ex":[["ApiE","C01_cells_ex"]],
 "doc":"C01.  In the container from which the result is read each fine cell is in\n    exactly one coarse cell, that of the identifier given to it."},
{"thm":"C02_contiguous_partial","src":"ApiT","lem":"C02_lem","ex":[["ApiE","C02_ex"]],
 "doc":"C02, when at most single cells are corrected.  Missing: larger thresholds,\n    for which the property is false (next theorem)."},
{"thm":"C02_contiguous_refuted","src":"ApiE","lem":"C02_ref","noctx":true,
 "doc":"C02 is false with a threshold of two: the identifiers left are 0, 1, 3."},
{"thm":"C03_connected_partial","src":"ApiT","lem":"C03_lem","ex":[["ApiE","C03_ex"]],
 "doc":"C03, when at most single cells are corrected.  Missing: larger thresholds,\n    for which the property is false (next theorem)."},
{"thm":"C03_connected_refuted","src":"ApiE","lem":"C03_ref","noctx":true,
 "doc":"C03 is false with a threshold of two: a cell keeps the identifier of a\n    removed coarse cell, which is given to another one."},
{"thm":"C04_max_card","src":"ApiT","lem":"C04_lem","ex":[["ApiE","C04_ex"]],
 "doc":"C04.  Without correction no isotropic coarse cell has more than [max_card]\n    cells."},
{"thm":"C05_small_cells","src":"ApiT","lem":"C05_lem","ex":[["ApiE","C05_ex"]],
 "doc":"C05.  Without correction identifiers follow the order of creation; all\n    neighbours of an isotropic coarse cell with less than [min_card] cells\n    are in coarse cells created before it."},
{"thm":"C06_no_error_partial","src":"ApiT","lem":"C06_lem","ex":[["ApiE","C06_ex"]],
 "doc":"C06.  A well-formed call has no undefined behaviour, assertion failure or\n    exception.  [good_call] leaves out three situations accepted by the\n    checks in which the code has undefined behaviour, shown below."},
{"thm":"C06_odd_limit_refuted","src":"ApiE","lem":"C06_limit_ref","noctx":true,
 "doc":"C06 is false for a line one cell shorter than an odd limit."},
{"thm":"C06_one_point_refuted","src":"ApiE","lem":"C06_one_point_ref","noctx":true,
 "doc":"C06 is false for one-point initialisation with non-positive priorities."},
{"thm":"C06_threshold_refuted","src":"ApiE","lem":"C06_threshold_ref","noctx":true,
 "doc":"C06 is false when lines are built with a negative threshold and a\n    compliant cell without neighbours."},
{"thm":"C07_terminates","src":"ApiT","lem":"C07_lem","ex":[["ApiE","C06_ex"]],
 "doc":"C07.  The fuel given to the loops of a well-formed call is never exhausted;\n    at most as many coarse cells as fine cells are created."},
{"thm":"C09_no_avoidable_single_cell","src":"ApiT","lem":"C09_lem","ex":[["ApiE","C09_ex"]],
 "doc":"C09.  After correction all neighbours of a single cell are in anisotropic\n    coarse cells."},
{"thm":"C10_correction_keeps_anisotropic_cells","src":"ApiT","lem":"C10_lem","ex":[["ApiE","C10_ex"]],
 "doc":"C10.  With and without correction the exported lines are the same and so\n    are the cells of each anisotropic coarse cell."},
{"thm":"C11_line_pieces","src":"ApiT","lem":"C11_lem","ex":[["ApiE","C11_ex"]],
 "doc":"C11.  Each line, taken from the end which comes first ([oriented]: more\n    boundary faces, then higher priority, then lower index), is cut in pairs and possibly a\n    final triple, which are the coarse cells of the exported line; the\n    left-over cell is not in an anisotropic coarse cell."},
{"thm":"C12_line_limit_partial","src":"ApiT","lem":"C12_lem","ex":[["ApiE","C12_ex"]],
 "doc":"C12.  What the limit does for well-formed calls: exactly the first K cells\n    are looked at.  A limit which is not positive is ignored for lines to be built\n    (C11) and keeps all the cells of given lines from being agglomerated.\n    Missing: the two situations of the next theorems, in which the property is\n    false."},
{"thm":"C12_leaves_line_refuted","src":"ApiE","lem":"C12_ub_ref","noctx":true,
 "doc":"C12 is false: with the limit 3 a line of two cells is left."},
{"thm":"C12_limit_exceeded_refuted","src":"ApiE","lem":"C12_limit_ref","noctx":true,
 "doc":"C12 is false: with the limit 2 a line of three cells is agglomerated."},
{"thm":"C13_exported_lines","src":"ApiT","lem":"C13_lem","ex":[["ApiE","C13_ex"]],
 "doc":"C13.  The exported lines are both empty or a valid index structure; they\n    list, once, identifiers present in the result."},
{"thm":"C14_built_lines","src":"ApiT","lem":"C14_lem","ex":[["ApiE","C14_ex"]],
 "doc":"C14.  The lines built are disjoint paths of at least two compliant cells."},
{"thm":"C16_seeds_of_run","src":"ApiT","lem":"C16_run_lem","ex":[["ApiE","C16_run_ex"]],
 "doc":"C16.  With boundary priority each isotropic coarse cell has a cell whose\n    number of boundary faces (clipped to the dimension) is the highest among\n    the cells which were not agglomerated at its creation."},
{"thm":"C27_compactness_of_run","src":"ApiT","lem":"C27_run_lem","ex":[["ApiE","C27_run_ex"]],
 "doc":"C27.  The compactness recorded for each isotropic coarse cell is that of its\n    definition and that computed from scratch."},
{"thm":"C36_number_of_cells_partial","src":"ApiT","lem":"C36_lem","ex":[["ApiE","C36_ex"]],
 "doc":"C36, without correction: the counter is the number of coarse cells after\n    the anisotropic and after the isotropic part.  Missing: after correction,\n    where the property is false (next theorem)."},
{"thm":"C36_number_of_cells_refuted","src":"ApiE","lem":"C36_ref","noctx":true,
 "doc":"C36 is false after the correction has removed a coarse cell."}
]}
