{
 "file": "PropsDep",
 "title": "the deprecated containers (C48-C50)",
 "imports": [
  "Deprec",
  "SpecDep",
  "DepT",
  "DepU",
  "DepE",
  "DepV",
  "DepF"
 ],
 "ctx": "{W : Type}",
 "types": {
  "t": "tree W",
  "s": "shape W",
  "f": "nat",
  "i": "nat",
  "v": "W",
  "m": "list (A * B)"
 },
 "entries": [
  {
   "thm": "C48_queue",
   "src": "DepT",
   "lem": "C48_queue_lem",
   "noctx": true,
   "ex": [
    [
     "DepE",
     "C48_queue_ex"
    ]
   ],
   "doc": "C48.  As long as no more elements are popped than were pushed, the elements\n    popped are the first pushed, in the order of the pushes, and the rest stays."
  },
  {
   "thm": "C48_queue_reads",
   "src": "DepT",
   "lem": "C48_queue_reads_lem",
   "noctx": true,
   "ex": [
    [
     "DepE",
     "C48_queue_reads_ex"
    ]
   ],
   "doc": "C48.  [top] is what [pop] would return; of an empty queue both are -1."
  },
  {
   "thm": "C48_priority_pair",
   "src": "DepT",
   "lem": "C48_priority_pair_lem",
   "noctx": true,
   "ex": [
    [
     "DepE",
     "C48_priority_pair_ex"
    ]
   ],
   "doc": "C48.  The comparison of [Priority_Pair] is the documented one, and a strict\n    total order when those of the components are."
  },
  {
   "thm": "C49_bimap_partial",
   "src": "DepT",
   "lem": "C49_bimap_lem",
   "ctx": "{A B : Type} `{Countable A} `{Countable B}",
   "ex": [
    [
     "DepE",
     "C49_bimap_ex"
    ]
   ],
   "doc": "C49.  As long as no key is given to two pairs, a [Bimap] holds the pairs put\n    in: both ways of looking up find the partner, and undefined behaviour is\n    met only for keys which are not there.  Missing: keys in use."
  },
  {
   "thm": "C49_insert_clash_partial",
   "src": "DepT",
   "lem": "C49_clash_lem",
   "ctx": "{A B : Type} `{Countable A} `{Countable B}",
   "ex": [
    [
     "DepE",
     "C49_clash_ex"
    ]
   ],
   "doc": "C49.  Every insertion of a key in use with another partner breaks the\n    container: it holds no list of pairs."
  },
  {
   "thm": "C49_insert_refuted",
   "src": "DepE",
   "lem": "C49_insert_ref",
   "noctx": true,
   "doc": "C49 refuted: after two insertions of the same first key, the partner of the\n    second key leads to another key."
  },
  {
   "thm": "C49_update_refuted",
   "src": "DepE",
   "lem": "C49_update_ref",
   "noctx": true,
   "doc": "C49 refuted: a key changed to one in use leaves a pointer to a destroyed\n    node, or a container without pairs which is not empty."
  },
  {
   "thm": "C50_tree_partial",
   "src": "DepU",
   "lem": "C50_tree_lem",
   "ex": [
    [
     "DepE",
     "C50_tree_ex"
    ]
   ],
   "doc": "C50.  Any sequence of insertions, and of deletions of the last of several\n    sons of the root or of sons which are not there, gives the tree described by\n    the operations: all pointers and numbers of sons are right.  Missing: other\n    deletions."
  },
  {
   "thm": "C50_delete_partial",
   "src": "DepU",
   "lem": "C50_delete_lem",
   "ex": [
    [
     "DepE",
     "C50_delete_ex"
    ]
   ],
   "doc": "C50.  The deletion of a son gives a tree only if it is the last of several\n    (or not there); it has undefined behaviour exactly for the only son, the\n    first of two and the last but one."
  },
  {
   "thm": "C50_delete_right",
   "src": "DepV",
   "lem": "C50_delete_right_lem",
   "ex": [
    [
     "DepF",
     "C50_right_ex"
    ]
   ],
   "doc": "C50.  If the deletion of a son is defined, the number of sons is right and\n    going to the right from the first son finds the other ones in the same order."
  },
  {
   "thm": "C50_unknown_father",
   "src": "DepU",
   "lem": "C50_lost_lem",
   "ex": [
    [
     "DepE",
     "C50_lost_ex"
    ]
   ],
   "doc": "C50.  An insertion under a son which is not there fails an assertion; if the\n    root has no sons a null pointer is dereferenced first."
  },
  {
   "thm": "C50_delete_refuted",
   "src": "DepE",
   "lem": "C50_delete_ref",
   "noctx": true,
   "doc": "C50 refuted: undefined behaviour in the deletion of the only son, of the\n    first of two, of the second of three."
  },
  {
   "thm": "C50_still_there_refuted",
   "src": "DepE",
   "lem": "C50_still_there_ref",
   "noctx": true,
   "doc": "C50 refuted: after the deletions of the second and of the fourth of four\n    sons, the fourth is still found."
  }
 ]
}