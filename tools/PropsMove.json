{"file": "PropsMove", "title": "the correction of the coarse cells which are too small (C41, C46)", "imports": ["Features", "Main", "Spec", "SpecSub", "SpecMove", "GraphP", "ApiE", "MoveT", "MoveE", "Inst"], "ctx": "{A : Arith} {H : HashOrder}", "entries": [{"thm": "C41_correction", "src": "MoveT", "lem": "C41_lem", "ex": [["MoveE", "C41_ex"]], "doc": "C41.  A call with correction compared with the same call without it.  The\n    isotropic coarse cells whose size is at most the threshold are treated by\n    increasing number.  One with several cells joins as a whole the smallest of\n    the isotropic coarse cells next to it which it makes more compact, if there\n    is one.  Otherwise its cells join one by one an isotropic coarse cell which\n    was next to them: one which becomes more compact if possible, then the one\n    which shares most faces with the cell, then the smallest, then the one with\n    the lowest number; a cell next to none stays.  Coarse cells which lost a cell\n    are then removed and the others renumbered in the same order; cells which\n    stayed in a removed one keep its number."}, {"thm": "C46_most_faces_partial", "src": "MoveT", "lem": "C46_lem", "ex": [["MoveE", "C46_ex"]], "doc": "C46, the part which holds: if a cell is the only one to correct and no\n    isotropic coarse cell next to it becomes more compact with it, it joins the\n    one which shares the most faces with it.  (C41 gives the full rule.)"}, {"thm": "C46_most_faces_refuted", "src": "MoveE", "lem": "C46_ref", "ex": [], "noctx": true, "doc": "C46 at full strength (\"we prefer the coarse cell which shares the most faces\n    with the fine cell\", Coarse_Cell_Container.h:326-329) is false: a coarse cell\n    which becomes more compact is preferred even if it shares fewer faces."}], "opens": ["#[local] Existing Instance qarith | 100.", "#[local] Existing Instance ord_id | 100.", ""]}