{"file":"PropsPool","title":"the choice of the seeds (C16-C18)","imports":["SpecPool","PoolT","PoolE"],
"opens":["#[local] Existing Instance qarith | 100.","#[local] Existing Instance ord_id | 100.",""],
"ctx":"{A : Arith} {H : HashOrder} (prio : list W) (bnd : list Z) (HD : pool_data prio bnd)",
"types":{"one":"bool","aggl":"list bool","p":"pool","bp":"bool","b":"Z","c":"nat","w":"W"},
"entries":[
{"thm":"C16_seed_of_history","src":"PoolT","lem":"C16_lem","ex":[["PoolE","C16_ex"]],
 "doc":"C16.  Whatever the history of a boundary-priority pool, the next seed is free\n    and no free cell has more boundary faces.  It is the first free cell of the\n    queue of its level or, if there is none, the one with the highest priority.\n    There is no seed only if there is no free cell."},
{"thm":"C17_seed_partial","src":"PoolT","lem":"C17_lem","ex":[["PoolE","C17_ex"]],
 "doc":"C17.  Whatever the history of a neighbourhood-priority pool, the next seed is\n    free and there is one if there is a free cell.  It is a cell in the queues as\n    long as they have a free cell.  Otherwise it has the highest priority among the\n    free cells with as many boundary faces; this number is that of the first\n    free cell which reaches the level of the last seed or, when there is no such cell,\n    the highest.  Missing: the next two theorems."},
{"thm":"C17_neighbour_refuted","src":"PoolE","lem":"C17_neighbour_ref","noctx":true,
 "doc":"C17 is false as far as neighbours are concerned: the second coarse cell does not touch\n    the first one, though the first one has free neighbours."},
{"thm":"C17_highest_refuted","src":"PoolE","lem":"C17_highest_ref","noctx":true,
 "doc":"C17 is false as far as the highest number of boundary faces is concerned: when the\n    pool is exhausted the third coarse cell is made of cells with at most one boundary\n    face, though a cell left has two."},
{"thm":"C18_first_seed_partial","src":"PoolT","lem":"C18_lem","ex":[["PoolE","C18_ex"]],
 "ctx":"{A : Arith} (prio : list W) (bnd : list Z) (HD : pool_data prio bnd)\n  (Hwm : weak_order wlt (λ w, w ∈ wminv :: prio))",
 "doc":"C18, when the priority of one of the cells with the most boundary faces is at least\n    the smallest positive number.  Missing: the next theorem."},
{"thm":"C18_non_positive_undefined","src":"PoolT","lem":"C18_ub_lem","ex":[["PoolE","C18_ub_ex"]],
 "ctx":"{A : Arith} (prio : list W) (bnd : list Z) (HD : pool_data prio bnd)\n  (Hwm : weak_order wlt (λ w, w ∈ wminv :: prio))",
 "doc":"C18.  In all other situations the behaviour is undefined."},
{"thm":"C18_first_seed_refuted","src":"PoolE","lem":"C18_ref","noctx":true,
 "doc":"C18 is false when all priorities are zero."}
]}
