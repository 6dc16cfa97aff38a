{"file": "PropsArgs", "title": "the ways of calling the library (C47)", "imports": ["Main", "UtilM", "ArgsM", "SpecChain", "Inst", "ApiE", "ArgsT"], "ctx": "{A : Arith} {H : HashOrder}", "entries": [{"thm": "C47_argument_classes", "src": "ArgsT", "lem": "C47_lem", "ex": ["C47_ex"], "doc": "C47.  The overload which takes the argument classes makes the call whose\n    arguments have the same meaning."}, {"thm": "C47_defaults", "src": "ArgsT", "lem": "C47_defaults_lem", "ex": ["C47_ex"], "doc": "C47.  Arguments left out, whichever they are, have the documented values: aspect ratio\n    DIAMETER_OVER_RADIUS, threshold and number of iterations one, extended\n    neighbourhood, lines built, odd lengths allowed, anisotropy above 4, no limit\n    on lines, coupling MAX_WEIGHT, straight lines."}, {"thm": "C47_python", "src": "ArgsT", "lem": "C47_python_lem", "ex": ["C47_python_ex"], "doc": "C47.  The Python function returns the three vectors of the C++ call with the\n    same arguments, whatever the vector of coarse cells held before, or raises\n    the same exception."}, {"thm": "C47_python_coarse_graph", "src": "ArgsT", "lem": "C47_python_graph_lem", "ex": ["C47_graph_ex"], "doc": "C47.  The Python function which builds the coarse graph returns the seven\n    vectors of the C++ one, in the same order.", "ctx": "{A : Arith}"}, {"thm": "C47_python_defaults", "src": "ArgsT", "lem": "C47_python_defaults_lem", "ex": ["C47_python_ex"], "doc": "C47.  Arguments left out in Python, whichever they are, have the values of the C++\n    function."}, {"thm": "C47_python_tools", "src": "ArgsT", "lem": "C47_python_tools_lem", "ex": ["C47_tools_ex"], "noctx": true, "doc": "C47.  The Python functions which compute wall distances and filter cells return\n    what the C++ ones do; the former does not depend on the vector given for the result."}], "opens": ["#[local] Existing Instance qarith | 100.", "#[local] Existing Instance ord_id | 100.", ""]}