{"file":"PropsFront","title":"pure-front neighbourhood (C29)","imports":["NeighP","Inst","SearchT","SpecFront","FrontT"],
"entries":[{"thm":"C29_pure_front","src":"FrontT","lem":"C29_front_lem","noctx":true,"ex":["C29_front_ex"],"doc":"C29.  The candidates of the pure-front neighbourhood after adding [cs]: all\n    the eligible neighbours as long as there are at most [d] cells; afterwards\n    the eligible neighbours of the first cell which has some, in the order: last\n    added, first added, last but one, second, and so on."}]}
