{
 "file": "PropsPiece",
 "title": "pieces of a mesh (C63)",
 "imports": [
  "Main",
  "Spec",
  "SpecSub",
  "SpecFeat",
  "SpecHash",
  "SpecLine",
  "SpecMove",
  "SpecFeed",
  "SpecWhole",
  "SpecRenum",
  "SpecReline",
  "SpecPiece",
  "Inst",
  "ApiE",
  "UseE",
  "PieceU",
  "PieceE",
  "PieceL",
  "PieceM",
  "PieceN",
  "PieceO"
 ],
 "ctx": "{A : Arith} {H : HashOrder}",
 "opens": [
  "#[local] Existing Instance qarith | 100.",
  "#[local] Existing Instance ord_id | 100.",
  ""
 ],
 "entries": [
  {
   "thm": "C63_pieces_partial",
   "src": "PieceU",
   "lem": "C63_lem",
   "ex": [
    [
     "PieceE",
     "C63_ex"
    ]
   ],
   "noctx": true,
   "doc": "C63, the part that holds.  With the boundary priority pool (order 0), a piece of the\n    mesh that no face links to the rest is cut into the same coarse cells as in a\n    call for it alone, numbered in the same order, and none of them has cells of\n    the rest, as long as cells of equal priority keep their relative order.\n    This is the case without lines.\n    Missing: corrections that dissolve coarse cells of more than\n    one fine cell, and the other pools, for which it is false (below)."
  },
  {
   "thm": "C63_lines_partial",
   "src": "PieceL",
   "lem": "C63_lines_lem",
   "ex": [
    [
     "PieceM",
     "C63_lines_ex"
    ]
   ],
   "noctx": true,
   "doc": "C63 with lines, given by the caller or built.  The lines given in the call for the\n    piece are those of the call for the whole mesh that have cells in the piece, in\n    the same order.  For lines that are built, neighbours must keep their relative\n    order.  The faces of each cell are listed in the same order in both calls.\n    Missing: as above."
  },
  {
   "thm": "C63_numbers_add_partial",
   "src": "PieceN",
   "lem": "C63_add_lem",
   "ex": [
    [
     "PieceO",
     "C63_add_ex"
    ]
   ],
   "noctx": true,
   "doc": "C63 for a mesh made of two pieces: the number of coarse cells of the mesh is the sum\n    of those of the two pieces by themselves.  Without lines.  Missing: as above."
  },
  {
   "thm": "C63_numbers_add_lines_partial",
   "src": "PieceN",
   "lem": "C63_add_lines_lem",
   "ex": [
    [
     "PieceO",
     "C63_add_lines_ex"
    ]
   ],
   "noctx": true,
   "doc": "The same with lines.  Missing: as above."
  },
  {
   "thm": "C63_order1_refuted",
   "src": "PieceE",
   "lem": "pool1_refuted",
   "ex": [],
   "noctx": true,
   "doc": "C63 is false with the neighbourhood pool, even if all the priorities differ: two\n    cells of the piece are together in the call for the whole mesh and apart in the\n    call for the piece."
  },
  {
   "thm": "C63_order10_refuted",
   "src": "PieceE",
   "lem": "pool10_refuted",
   "ex": [],
   "noctx": true,
   "doc": "C63 is false with the pool that starts from one cell."
  },
  {
   "thm": "C63_order11_refuted",
   "src": "PieceE",
   "lem": "pool11_refuted",
   "ex": [],
   "noctx": true,
   "doc": "C63 is false with the neighbourhood pool that starts from one cell."
  },
  {
   "thm": "C63_ties_refuted",
   "src": "PieceE",
   "lem": "piece_ties_refuted",
   "ex": [],
   "noctx": true,
   "doc": "C63 is false if cells of equal priority do not keep their order."
  },
  {
   "thm": "C63_neighbours_refuted",
   "src": "PieceM",
   "lem": "piece_neighbours_refuted",
   "ex": [],
   "noctx": true,
   "doc": "C63 with lines that are built is false if neighbours do not keep their relative\n    order, even if all the priorities differ."
  },
  {
   "thm": "C63_correction_refuted",
   "src": "PieceO",
   "lem": "piece_torn_refuted",
   "ex": [],
   "noctx": true,
   "doc": "C63 is false if coarse cells of two cells are corrected, even if all the priorities\n    differ: two cells of the piece are apart in the call for the whole mesh and together\n    in the call for the piece, and one of them is with a cell of the rest."
  }
 ]
}