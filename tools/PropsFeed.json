{"file": "PropsFeed", "title": "all the coarse cells of a call (C45)", "imports": ["Features", "Neigh", "Iso", "Main", "Spec", "SpecSub", "SpecFeat", "SpecAR", "SpecBest", "SpecPool", "SpecGrow", "SpecFeed", "SpecLine", "FeatU", "GraphP", "FeedT", "GrowE", "FeedE", "BestE", "ApiE", "Inst"], "ctx": "{A : Arith} {H : HashOrder}", "entries": [{"thm": "C45_all_coarse_cells", "src": "FeedT", "lem": "C45_lem", "ex": [["FeedE", "C45_ex"]], "doc": "C45.  The isotropic coarse cells of a call without correction, from the\n    first to the last.  The queues of seeds start with the free neighbours of the\n    lines, in the order in which the lines are walked along, or with the cells\n    with most boundary faces; then, until no cell is free, a seed is taken, a\n    coarse cell is grown from it and its free neighbours are queued by distance,\n    boundary faces, priority and index.  Anisotropic coarse cells have the first\n    numbers, isotropic ones the next, in the order in which they are built."}], "opens": ["#[local] Existing Instance qarith | 100.", "#[local] Existing Instance ord_id | 100.", ""]}