{
 "file": "PropsBin",
 "title": "the numbers of double precision (C64)",
 "imports": ["Base", "Double", "DoubleE", "SpecNum", "SpecBin", "BinT", "BinR", "BinE", "SpecRoot", "RootT", "RootE"],
 "ctx": "",
 "opens": ["#[local] Open Scope Z_scope.", ""],
 "entries": [
  {"thm": "C64_order", "src": "BinT", "lem": "C64_order_lem", "ex": [["BinE","C64_order_ex"]], "noctx": true,
   "doc": "C64: numbers are compared by value; both zeros are equal."},
  {"thm": "C64_constants", "src": "BinT", "lem": "C64_constants_lem", "ex": [["BinE","C64_constants_ex"]], "noctx": true,
   "doc": "C64: the literals 0.90, 0.9396926207859084 and 1e-12 are the closest numbers."},
  {"thm": "C64_extremes", "src": "BinT", "lem": "C64_extremes_lem", "ex": [["BinE","C64_extremes_ex"]], "noctx": true,
   "doc": "C64: [max()] is the greatest number, [min()] the smallest positive one with a full significand."},
  {"thm": "C64_integers", "src": "BinT", "lem": "C64_integers_lem", "ex": [["BinE","C64_integers_ex"]], "noctx": true,
   "doc": "C64: integers below 2^53 are converted without error."},
  {"thm": "C64_operations", "src": "BinE", "lem": "C64_operations_lem", "ex": [["BinE","C64_operations_ex"]], "noctx": true,
   "doc": "C64: sums, differences, products and quotients are the exact ones rounded to the nearest number, ties to even, infinite beyond the range; absolute values are exact."},
  {"thm": "C64_square_roots", "src": "RootT", "lem": "C64_root_lem", "ex": [["RootE","C64_root_ex"]], "noctx": true,
   "doc": "C64: the square root of a number which is not negative is the exact one rounded to the nearest number (there are no ties), that of a negative number is NaN."},
  {"thm": "C64_special", "src": "BinE", "lem": "C64_special_lem", "ex": [["BinE","C64_special_ex"]], "noctx": true,
   "doc": "C64: each number lies between the infinities, and every comparison with NaN is false."}
 ]
}
