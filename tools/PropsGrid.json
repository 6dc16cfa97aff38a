{
 "file": "PropsGrid",
 "title": "regular grids (C67, C68)",
 "imports": [
  "Main",
  "Spec",
  "SpecSub",
  "SpecGrid",
  "GridU",
  "GridE",
  "ApiE",
  "Inst"
 ],
 "opens": [
  "#[local] Existing Instance qarith | 100.",
  "#[local] Existing Instance ord_id | 100.",
  ""
 ],
 "ctx": "{A : Arith} {H : HashOrder}",
 "types": {
  "i": "input",
  "o": "outs",
  "half": "nat → nat",
  "co": "nat → nat → nat",
  "r": "outs",
  "e": "res unit"
 },
 "entries": [
  {
   "thm": "C67_blocks",
   "src": "GridU",
   "lem": "C67_lem",
   "ex": [
    [
     "GridE",
     "C67_ex"
    ]
   ],
   "doc": "C67.  The coarse cells of a regular grid are its blocks of two cells in each direction: in\n    two dimensions always, in three with the extended neighbourhood and without look-ahead."
  },
  {
   "thm": "C68_flat_partial",
   "src": "GridU",
   "lem": "C68_flat_lem",
   "ex": [
    [
     "GridE",
     "C67_ex"
    ]
   ],
   "doc": "C68, positive part: two dimensions, any neighbourhood and any look-ahead.  Missing: three\n    dimensions, where it is false."
  },
  {
   "thm": "C68_look_ahead_refuted",
   "src": "GridE",
   "lem": "C67_ahead_ref",
   "noctx": true,
   "doc": "C68 is false in three dimensions with a look-ahead of four cells."
  },
  {
   "thm": "C68_front_refuted",
   "src": "GridE",
   "lem": "C67_front_ref",
   "noctx": true,
   "doc": "C68 is false in three dimensions with the pure front."
  }
 ]
}