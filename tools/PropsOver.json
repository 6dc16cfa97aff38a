{"file":"PropsOver","title":"bounded integers in the tools of Util.h (C54)","imports":["UtilM","UtilC","Spec","SpecCoarse","OverT","OverE"],
"opens":[],
"ctx":"",
"types":{"n":"nat","idx":"list nat","col":"list nat","wall":"list nat","dist0":"list Z","bnd":"list Z","allowed":"list Z","top":"nat"},
"entries":[
{"thm":"C54_wall_distance","src":"OverT","lem":"C54_wall_lem","noctx":true,"ex":[["OverE","C54_wall_ex"]],
 "doc":"C54.  The wall distance, with distances up to [top]: overflow exactly if a cell is at\n    distance [top]; never with at most [top] cells."},
{"thm":"C54_filter","src":"OverT","lem":"C54_filter_lem","noctx":true,"ex":[["OverE","C54_filter_ex"]],
 "doc":"C54.  Counting the faces of the cells with 32 bits gives the same selection if the\n    numbers of faces fit."}]}
