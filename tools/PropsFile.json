{
 "file": "PropsFile",
 "title": "Files of meshes (C79, C80)",
 "imports": [
  "Base",
  "ToolsM",
  "FileM",
  "SpecFile",
  "FileT",
  "Inst",
  "FileE"
 ],
 "opens": [
  "From Coq Require Import QArith Qcanon Ascii.\nFrom stdpp Require Import strings.",
  "#[local] Open Scope Z_scope.",
  "#[local] Open Scope nat_scope.",
  "#[local] Open Scope list_scope.",
  "#[local] Existing Instance qarith | 100.",
  "#[local] Existing Instance text1 | 100.",
  ""
 ],
 "ctx": "{A : Arith} {T : Text}",
 "types": {},
 "entries": [
  {
   "thm": "C79_read_partial",
   "src": "FileT",
   "lem": "C79_lem",
   "ex": [
    [
     "FileE",
     "C79_ex"
    ]
   ],
   "doc": "C79.  A file with the dimension and six lines of numbers: values too many are discarded, missing ones\n    are what the vectors held or zero; the row pointer comes after what its vector held."
  },
  {
   "thm": "C79_any_file",
   "src": "FileT",
   "lem": "C79_any_lem",
   "ex": [
    [
     "FileE",
     "C79_any_ex"
    ]
   ],
   "doc": "C79.  Any file: reading ends; the vectors read go together, or the file is refused, or the behaviour is\n    undefined (a value which is missing is used)."
  },
  {
   "thm": "C79_append_refuted",
   "src": "FileE",
   "lem": "C79_ref",
   "ex": [],
   "doc": "C79 at full strength fails: the vector of row pointers is not emptied.",
   "noctx": true
  },
  {
   "thm": "C80_read_back_partial",
   "src": "FileT",
   "lem": "C80_lem",
   "ex": [
    [
     "FileE",
     "C80_ex"
    ]
   ],
   "doc": "C80.  What [dump_graph] writes is read back: the same mesh, its weights rounded."
  },
  {
   "thm": "C80_rounding_refuted",
   "src": "FileE",
   "lem": "C80_ref",
   "ex": [],
   "doc": "C80 at full strength fails: a positive volume is read back as zero.",
   "noctx": true
  }
 ]
}