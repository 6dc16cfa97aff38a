{
 "file": "PropsStrict",
 "title": "iterators invalidated while coarse cells are renumbered (C65)",
 "imports": [
  "Main",
  "Spec",
  "SpecSub",
  "SpecMove",
  "Strict",
  "SpecStrict",
  "Inst",
  "ApiE",
  "GrowE",
  "MoveE",
  "StrictT",
  "StrictE"
 ],
 "ctx": "{A : Arith} {H : HashOrder}",
 "types": {
  "i": "input",
  "o": "outs"
 },
 "opens": [
  "#[local] Existing Instance qarith | 100.",
  "#[local] Existing Instance ord_id | 100.",
  ""
 ],
 "entries": [
  {
   "thm": "C65_iterators_partial",
   "src": "StrictT",
   "lem": "C65_rule_lem",
   "ex": [
    [
     "StrictE",
     "C65_rule_ex"
    ]
   ],
   "doc": "C65, the part that holds.  With the increment of an invalidated iterator as undefined\n    behaviour, a corrected call is defined, with the result of the rest of the model, if\n    each removed coarse cell has a higher number than all those which stay; if not, its\n    behaviour is undefined."
  },
  {
   "thm": "C65_uncorrected_partial",
   "src": "StrictT",
   "lem": "C65_off_lem",
   "ex": [
    [
     "StrictE",
     "C65_off_ex"
    ]
   ],
   "doc": "C65: calls without correction use no invalidated iterator."
  },
  {
   "thm": "C65_either_partial",
   "src": "StrictT",
   "lem": "C65_either_lem",
   "ex": [
    [
     "StrictE",
     "C65_either_ex"
    ]
   ],
   "doc": "C65: whatever the call, the result is that of the rest of the model or undefined."
  },
  {
   "thm": "C65_iterators_refuted",
   "src": "StrictE",
   "lem": "C65_ref",
   "ex": [],
   "noctx": true,
   "doc": "C65 is false: a mesh of six cells and the default threshold."
  }
 ]
}