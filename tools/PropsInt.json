{"file":"PropsInt","title":"32-bit integers (C54)","imports":["Main","Machine","Spec","SpecInt","Inst","ApiE","IntE"],
"ctx":"{A : Arith} {H : HashOrder}",
"opens": ["#[local] Existing Instance qarith | 100.", "#[local] Existing Instance ord_id | 100.", ""],
"entries":[
{"thm":"C54_no_overflow","src":"IntE","lem":"C54_no_overflow_lem","ex":[["IntE","C54_no_overflow_ex"],["IntE","C54_no_overflow_max"]],"doc":"C54.  With valid data of moderate size no number overflows: the program\n    with 32-bit integers succeeds with the outputs of the one with unbounded\n    integers."},
{"thm":"C54_only_overflow","src":"IntE","lem":"C54_only_overflow_lem","ex":[["IntE","C54_only_overflow_ex"]],"doc":"C54.  Whatever the call, either the two programs agree or the one with\n    32-bit integers meets an overflow."},
{"thm":"C54_negative_counts","src":"IntE","lem":"C54_negative_counts_lem","noctx":true,"doc":"C54.  Nothing rejects a negative number of boundary faces, and then a\n    number may overflow on a mesh of two cells."}]}
