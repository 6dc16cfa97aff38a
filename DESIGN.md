# Formal model of onera/CoMMA

## 1. What is modelled

The library is header only (`/repo/include/CoMMA`).  The model is a set of
computable Gallina functions, one per C++ function, in `rocq/theories`.  Every
definition cites the header and the lines it stands for, with its
simplifications.

| File | C++ source | Content |
|---|---|---|
| `Base.v` | - | outcomes, vectors, weight arithmetic, hash-order oracle |
| `Pairs.v` | `Util.h` | dot product, distance, direction, pair orders, ordered sets of pairs |
| `Graph.v` | `Dual_Graph.h` | CSR graph, compactness, neighbourhood search, DFS, connectivity check |
| `Features.v` | `ARComputer.h` | cell features and the ten aspect ratios |
| `Neigh.v` | `Neighbourhood.h` | extended and pure-front candidates |
| `Seeds.v` | `Seeds_Pool.h` | boundary and neighbourhood priority pools, both initialisations |
| `Container.v` | `Coarse_Cell.h`, `Coarse_Cell_Container.h` | coarse cells, creation, correction, renumbering |
| `Iso.v` | `Agglomerator.h` | isotropic agglomeration: biconnected and iterative |
| `Aniso.v` | `Agglomerator.h`, `Dual_Graph.h` | tagging, line building, line cutting, line export |
| `TagM.v` | `Dual_Graph.h` | tagging with the values of `preserving` that the library does not use |
| `Main.v` | `CoMMA.h` | `agglomerate_one_level`: checks, fix-ups, whole pipeline |
| `Machine.v` | `Agglomerator.h`, `Dual_Graph.h`, `ARComputer.h`, `Coarse_Cell*.h` | the functions of the isotropic part once more, with 32-bit integers |
| `UtilM.v` | `Util.h` | `filter_cells_by_n_edges`, wall distance, `build_coarse_graph` |
| `UtilC.v` | `Util.h` | `filter_cells_by_n_edges` and wall distance once more, with bounded integers |
| `Subgraph.v` | `Dual_Graph.h`, `Coarse_Cell.h` | `Subgraph`, `Coarse_Cell_Subgraph` |
| `ArgsM.v` | `Args.h`, `CoMMA.h`, `src/CoMMA.cpp` | parameter list, default arguments, argument classes, functions of the Python module |
| `ToolsM.v` | `examples/scripts/comma_tools.py`, `ex_rae.py`, `misc_scripts/test_util.h` | Python helpers (exceptions as outcomes), the levels and priorities of the scripts, `build_coarse_CSR` |
| `FileM.v` | `comma_tools.py` (`dump_graph`), `misc_scripts/test_util.h` (`read_mesh_from_file`) | files of meshes: streams, `getline`, numerals; how weights are written and read is any pair of functions |
| `LevelM.v` | `ex_several_agglo_levels.py`, `ex_rae.py` (loop over the levels) | levels of the scripts: the library called again and again, the coarse graph built in Python between the calls; drawing is left out |
| `DrawM.v` | `ex_aniso_lines.py` (dictionary of lines), `ex_rae.py` (foil and priorities) | cells drawn for each line, priorities of the first level |
| `Deprec.v` | `deprecated/*.h` | queue, priority pair, bimap, tree (not used by the library) |
| `Strict.v` | `Coarse_Cell_Container.h` (`correct`) and its callers | the renumbering once more, where the increment of an invalidated iterator is undefined |
| `Double.v` | `src/CoMMA.cpp` (`WeightType`) | weights as IEEE 754 binary64 numbers |
| `Fidelity.v` | `tests/test_isoagglo.cpp`, `test_structure.cpp` | the model run with binary64 numbers on the repository's own test meshes |
| `FidelMesh.v` | `tests/DualGraphExamples.h` | the other test meshes, extracted by `tools/mkmesh.py` |
| `FidelCorr.v` | `tests/test_correction.cpp` | the model on these tests (by-hand cases extracted by `tools/mkcorr.py`) |
| `FidelPool.v` | `tests/test_seedspool.cpp` | the model on these tests |
| `FidelNeigh.v` | `tests/test_neighbourhood.cpp`, `test_utils.cpp`, `test_graph.cpp` | the model on these tests |
| `FidelAR.v` | `tests/test_ARComputer.cpp` | the model on these tests |
| `FidelAniso.v` | `tests/test_anisoagglo.cpp`, `test_structure.cpp` | the model on these tests |
| `FidelDep.v` | `tests/test_deprecated.cpp` | the model on these tests |
| `FidelEx.v` | `examples/cpp/ex_aniso_lines.cpp`, `examples/scripts/test_CoMMA.py` | the model on these examples, through the three ways of calling it |

### Outcomes

A function that may fail returns `res A`: `Ok a`, or `Err e`, where `e` tells
apart `std::invalid_argument` (and which check), `std::out_of_range`,
`bad_optional_access`, undefined behaviour (`EUB`), a failed `assert`
(`EAssert`) and exhausted loop fuel (`EFuel`).  Out-of-bounds indexing,
dereferencing an end iterator, moving an iterator past the end and `front()` of
an empty container are all `EUB`.  `EFuel` corresponds to non-termination; the
theorems exclude it.

### Weights

`CoMMAWeightType` is an arbitrary type with arbitrary operations and no laws
(class `Arith`).  A theorem stated for every `Arith` therefore holds for
binary64 including rounding, infinities and NaN; `Double.v` is that instance, and
C59 says what is left of the hypotheses on numbers for it.  Theorems that need laws
(conservation of volumes, ordering of priorities...) state them as hypotheses
or are stated for exact arithmetic.

### Unordered containers

`unordered_set`/`unordered_map` are `gset nat`/`gmap nat _`.  Each loop over one
goes through an oracle (class `HashOrder`) that may permute the elements in any
way, differently at each program point.  Theorems quantify over the oracle.

### Integers

Cell indices are `nat` (an unsigned index type; the code never subtracts below
zero on well-formed input, and where it could the model yields `EUB`).
`CoMMAIntType` is `Z` without overflow.  `numeric_limits<int>::max/min` are the
32-bit values.  `Machine.v` writes the functions which compute with numbers of
this type once more, with a test at each operation; a result which does not fit
in 32 bits is undefined behaviour.  C54 relates the two.

## 2. What is not modelled

* Console output, logging, destructors, memory exhaustion.
* Overflow of the index type (64 bits).  Overflow of `int` in `deprecated/`.
* `print` functions, and `fill_value` (`deprecated/templateHelpers.h`), an
  assignment under a compile-time condition.
* Reading and writing of meshes in the scripts, the checks of shapes of numpy arrays,
  and the profiling code of `misc_scripts/`.  In `convert_to` (`test_util.h`) the stream
  is `const`, which no compiler accepts once the template is used; `FileM.v` is for a
  stream which is not.
* The conversions made by pybind11 and the uninitialised members of the default
  constructors of `Args.h`.
* The tree search inside `std::set` with a comparator which is not a strict weak
  order (NaN priorities): the model uses linear insertion.
* After `extract` + `insert` on a `std::map`, the code goes on using the old
  iterator.  The model assumes it still designates the moved node, which the
  standard does not say; `Strict.v` is the other reading (C65).
* `_idx` of coarse cells, `_threshold_card`, `_l_nb_of_cells`: never read.

## 3. Specification vocabulary

`Spec.v` contains the notions used by the theorem statements, written without
model functions: adjacency of a CSR pair of vectors, well-formed mesh input,
paths, connected sets, distances, partitions.

A *well-formed input* is: at least one cell; row pointers non-decreasing from 0;
column indices in range; adjacency symmetric; one volume, centre, priority and
boundary count per cell; centres of equal length; boundary counts >= 0;
compliant cells in range.  The code checks hardly any of this.

Notions needed by one group of properties only are in files of their own:

| file | notions | properties |
|---|---|---|
| `SpecArgs.v` | arguments accepted and rejected by the call | C08, C33-C35 |
| `SpecPool.v` | content and order of the pools of seeds | C16-C18 |
| `SpecCoarse.v` | coarse edges, sums over coarse cells, walls | C19-C25 |
| `SpecSub.v` | subgraphs, connectivity, insertion, removal | C30, C31 |
| `SpecFeat.v`, `SpecAR.v` | features of a set of cells, aspect ratios | C28, C39 |
| `SpecBest.v` | comparison of candidates | C38 |
| `SpecChain.v` | several levels, one after the other | C32, C61 |
| `SpecGrow.v` | neighbourhood of a seed, successive candidates, size kept | C40 |
| `SpecFeed.v` | queues of seeds at the start, when a seed is taken, when a coarse cell is built; whole sequence of coarse cells | C45 |
| `SpecMove.v` | which coarse cell a cell or a whole coarse cell joins, the order of the moves, the new numbers | C41, C46 |
| `SpecDep.v` | sequences of operations on the deprecated containers, what a bimap holds, the shape of a tree | C48-C50 |
| `SpecFront.v` | which neighbours are candidates of the pure front | C29 |
| `SpecRules.v` | the rules of C45 as one notion; results with the same lines | C51 |
| `SpecUse.v` | priorities in the same order; replacing one argument of a call | C52, C53 |
| `SpecInt.v` | meshes small enough for 32-bit integers | C54 |
| `SpecGeo.v` | the same call with moved centres or with other units of weight, volume and length | C55, C56 |
| `SpecWhole.v` | the whole result of a call: candidates, aspect ratios, look-ahead, growth, lines, pieces, seeds and exported arrays put together, with no function of the model | C57, C85 |
| `SpecReord.v` | the same faces of each cell listed in another order | C58 |
| `SpecRenum.v` | the same mesh with the cells numbered otherwise | C60 |
| `SpecReline.v` | the same for calls with lines: order of the neighbours, order of the faces along the lines | C60 |
| `SpecDouble.v` | a call made as documented with binary64 numbers | C59 |
| `SpecHash.v` | aspect ratios made of distances, total orders | C26 |
| `SpecNum.v` | an order which is total on the numbers compared while lines are built; face weights and centres in double precision | C43, C44, C62 |
| `SpecBin.v` | numbers of the binary64 format, their values in units of 2^-1074, nearest number, correct rounding | C64 |
| `SpecRoot.v` | number closest to a square root | C64 |
| `SpecTorn.v` | coarse cells next to each other, cells left behind in a removed coarse cell | C66 |
| `SpecGrid.v` | regular grids with an even number of cells in each direction, their blocks | C67, C68 |
| `SpecCol.v` | columns of strongly coupled anisotropic cells; regular grids stretched in one direction | C69 |
| `SpecHier.v` | regular grids of any size; the fine-to-coarse maps of several levels, the coarse cell of a cell after all of them | C70 |
| `SpecLay.v` | a line is put in a coarse line by groups of `g` consecutive cells | C71 |
| `SpecTools.v` | sums and centres of coarse cells, the line of a coarse cell, what a shuffle does, a call with other priorities | C72-C78 |
| `SpecFile.v` | decimal numerals, fields separated by commas, sizes of vectors which go together | C79, C80 |
| `SpecLevel.v` | levels whose numbers are the cells of the next one, priorities and volumes which can be used | C81 |
| `SpecStrict.v` | the coarse cells removed by the correction | C65 |
| `SpecPiece.v` | a piece of a mesh which no face links to the rest | C63 |
| `SpecAlone.v` | a call with other volumes and other isotropic arguments | C84 |
| C85 | the coarse cells of a line are the pieces in which the used part of the line is cut, of two cells each but for a last one of two or three; so there are half as many pieces as cells; splitting the returned vectors gives back these pieces line by line |
| `SpecLine.v` | anisotropic cells, couplings, rule by which lines are built, direction of lines | C11, C12, C42–C44 |

## 4. Properties and how they are proved

`properties.jsonl` lists the properties; `MANIFEST.json` maps each to the
theorems.  Shapes of proof:

| Property | Approach |
|---|---|
| C01, C02, C06, C07 | total-correctness logic for the error monad: each model function is shown to return `Ok` with a postcondition under the loop invariant "agglomerated cells = cells of coarse cells 0..k-1, disjoint"; seeds-pool invariant guarantees a seed while a cell is left |
| C03, C27 | invariant of the growth loop: the growing set is connected; correction adds adjacent cells |
| C04, C05 | bounds of the growth loop; neighbourhood search exhausts the component when it returns few cells |
| C08, C33, C34, C35 | case analysis on the checks, functional equality |
| C09, C10, C36 | invariants of the correction loop; counter-examples where false; the counter after the correction (`CountT.v`) is the number of coarse cells before it |
| C11-C14, C42 | induction on the line |
| C43, C44 | the fold over a row computes the extremum of the row; the loops which build a line are related to an inductive rule, itself shown to be deterministic |
| C40, C41, C45 | each loop is shown to compute what a relational rule says (extremum, sorted list, prefix); the rules are chained by induction on the loop |
| C47 | by computation: the model of each interface passes its arguments by position, the statement names them |
| C48-C50 | relations between the heap of nodes and a list of pairs or the shape of the tree, kept by each operation; for deletions all positions are distinguished |
| C51 | each rule of C40, C41, C45 is shown to have at most one outcome; for the correction the single cells are pairwise not neighbours (C05), so that no correction changes the cells of a later one |
| C52, C53 | two runs of the model are compared step by step; errors must agree too, so no hypothesis on the call is needed |
| C54 | each function with tests is shown equal to the one without, from bounds on the numbers of faces; the invariants of C01 bound the sizes.  Without hypotheses, the functions with tests either agree or stop.  Wall distance: a cell which has left the queue has been incremented, so none is at the greatest distance if nothing overflowed |
| C55, C56 | two runs are compared step by step: the features of candidates agree or differ by a positive factor, which the comparisons do not see.  For C56 the accumulated extreme distances must stay between the two limits of the number type.  The barycentre of aspect ratios 7 and 8 is the sum of volume times centre divided by the number of cells instead of the volume (ARComputer.h, 269-284); they are refuted on three cells |
| C57 | C44, C45, C41 with the calls of model functions in their rules replaced by the descriptions of C28, C29, C37-C39; the description is then shown to have at most one outcome, by induction on the coarse cells and on the depth of the look-ahead.  From the model files `result_right` uses only types and projections (checked with the `.glob` files) |
| C58 | through C57: the description of the result of the call with the rearranged rows is the one of the first call, and at most one result fits it; for corrections with larger thresholds the state before the correction is the same and each step of the correction does not depend on the order of the faces; the refuting mesh has 5 cells and one given line |
| C59 | the executable specification of IEEE 754 of the standard library (`SpecFloat`, no axioms) as an instance of `Arith`; its order on numbers other than NaN is that of triples of integers; sums of squares have no minus sign, so extrema of distances are unique whatever the order in which they are compared (C26) |
| C60 | as C58: the description of the result in C57 is carried along the renumbering, part by part, and C57 says that it has just one solution; for the boundary-priority pools the invariant is that no free cell is above the level in use; the lines are carried along step by step, the choice of the next cell of a line being a minimum over the neighbours; refuted for larger corrections by a mesh of 9 cells |
| C61 | counting: the classes of the partition, put one after the other, are a permutation of the cells; each has two cells (C09, C11) or a cell that may stay alone, or at most the maximal cardinal (C04); levels by induction with C32; for larger thresholds each number in use comes from a coarse cell that had two cells before the correction (C66) |
| C62 | C43 and C44 proved for an order total only on a set of numbers closed under what the program compares; the doubles other than NaN and -0 are such a set (quotients of ratios, products, distances, cosines of finite centres) |
| C63 | two runs of the description of the result in C57, for the whole mesh and for the piece, kept in step: the free cells of each queue of the piece are the cells of the piece among the free cells of the queue of the whole mesh, in the same order; a step of the whole mesh elsewhere does nothing to the piece, a step in the piece is the next step of the run for the piece alone. Then the corrections of single cells are kept in step in the same way. False for corrections of larger coarse cells, for the pools of orders 1, 10 and 11, if ties are reordered, and for built lines if neighbours are reordered (counter-examples). With lines: the lines of the piece are those among the lines of the mesh which have cells in it. For built lines this follows because a line grows along faces and so cannot leave the piece. The pieces of the lines come first in both numberings; the cells beside the lines, with which the seeds start, are those of the piece filtered out of those of the mesh. For two pieces which make up the mesh, the numbers of the coarse cells of each are mapped injectively to numbers of the mesh, and the two ranges are disjoint and cover all. |
| C64 | values as integer multiples of the smallest number; the records of the standard library's shifts locate the exact result between two integers; a number which is not a multiple of the last place is farther away than the lowest number of the binade; the integer square root taken by the standard library has exactly 53 binary digits |
| C65 | the moves of C41 carried up to the renumbering, which is defined by the letter of the standard just when the loop over the coarse cells to renumber has no step |
| C66 | invariant over the moves of C41: only cells of coarse cells to correct move, to coarse cells of lower number which are not to be corrected; so what is next to a cell never changes while it matters |
| C67, C68 | at each start of a coarse cell the cells already taken are a union of blocks and the start has the most boundary or taken neighbours of its queue; the cell taken next is the one with most faces towards the growing coarse cell and stays in the block, so the block is completed; in three dimensions this needs the plain neighbourhood and no look-ahead (counter-examples) |
| C69 | starting from the description of built lines (C44): as long as whole columns are taken, the cells still free form columns; from any seed the line runs to one end of its column and then to the other end, since the next cells of the column are the only strongly coupled free cells; a stretched grid is a case of columns, found by comparing the two weights |
| C70 | a grid is in one piece, so C32's step applies (the correction finds nothing to do); by C67 the coarse cells are blocks, by C20 and C24 the coarse graph has the edges and boundary counts of the grid with halved sizes; induction on the levels |
| C71 | one level halves a line of even length and exports the halves in the order of the line or in the reverse order (C11, C13), C32's step makes the next call good; groups of `m` after groups of 2 are groups of `2 * m`, induction on the levels; the columns of a stretched grid are the lines of the first level (C69) |
| C72-C78 | same invariants as for the C++ functions, with Python's negative indices and exceptions; counter-examples where false; C78: the seeds pool reads the priority of the last cell, so the first read past the end is reached from any good call |
| C79, C80 | a stream holds the fields which remain to be read; each loop puts them in its vector; the centres are read as one vector cut in rows; numerals are read as written by induction on the digits |
| C81 | the coarse graph built in Python satisfies what the library asks for (C74, C75), so one level leads to a good call for the next one; induction on the levels |
| C82 | the pieces of each line (C11) and the form of the exported vectors (C13) give the cells of each slice; the loop is followed with an invariant |
| C83 | distances by C72; sums of small integers are exact and quotients correctly rounded (C64), a number close to the exact quotient bounds the error, which is less than the gap between two reciprocals |
| C84 | the lines are computed from the anisotropic arguments only (the volumes are part of the graph but never read); the coarse cells of a line are the pieces of the walked line, their numbers are consecutive from zero, and neither the isotropic agglomeration nor the correction touches them, so the pieces and numbers of the two calls are equal. With given lines only the boundary counts and the priorities of the mesh are read |
| C15, C19, C30 | breadth/depth-first search invariants against path distance |
| C16-C18 | pool invariants |
| C20-C24, C32 | fold invariants of `build_coarse_graph`; counter-examples where false |
| C25, C37, C38 | direct |
| C26 | relational proof: two runs with different oracles are equal; counter-example where false |
| C28 | exact arithmetic |
| C29, C31 | invariants; counter-examples where false; vectors rewritten as lists of rows for the removal of a cell with one neighbour |

Properties which the faithful model refutes are kept at full strength in
`properties.jsonl`, refuted by a theorem `..._refuted` with a concrete witness,
and accompanied by the part which is true (`..._partial`).

## 5. Trusted base

* Coq 8.16.1 kernel.
* The reading of the C++ code which produced the model.  `Fidelity.v` and the
  `Fidel*.v` files run the model on the meshes of the repository's tests and
  check the expected results of those tests: whole calls (4 pools, both
  neighbourhoods, 2D/3D, anisotropic lines, look-ahead, the calls which must
  throw) and the parts one by one (correction, pools, neighbourhoods, the ten
  aspect ratios, tagging, `Util.h`, subgraphs, deprecated containers).  Every
  requirement of those tests about what is modelled holds of the model.
* `Print Assumptions` is printed below each property theorem; see section 6.

## 6. Print Assumptions

Every theorem of the `Props*.v` files is followed by `Print Assumptions`, and
each of them prints "Closed under the global context": no axiom is used, not
even one of the standard library.  Real numbers do not occur; weights are the
class `Arith`, whose laws are hypotheses of the theorems that need them.

## 7. Tests against wrong programs

`seeded/LOG.jsonl` has one line per wrong program.  Each one is an edit of a
model file, made in a scratch copy, after which everything is rebuilt.  When a
lemma no longer checks it is assumed in the scratch copy only, and the build
goes on, so that all lemmas hit by the edit are found.  A property theorem
"stopped checking" when `Print Assumptions` shows that it rests on such a lemma.

How to read an entry:

- A theorem that stopped checking is not thereby false of the edited program:
  a proof script can break although the statement still holds.  The lists of
  theorems therefore over-report, and are not counted as evidence on their own.
- `computed_values_changed` are examples whose computed result differs.  They
  show that the edit changes behaviour, not which claim it breaks.
- `claim_theorem_false_of_edit` is a judgement by hand, from the statement of
  the theorem and the edit.  It is not machine-checked.  Where the note says
  "computed", the value was obtained by evaluating the edited model.
- A theorem which still checks although its claim is false of the edit is too
  weak; what was done about it is in `theorems_tightened`.
- The first entry is a control: an edit of white space, for which nothing fails.
- Where a note speaks of random calls: 150 calls on random meshes of at most
  twenty cells are evaluated in the edited and in the unedited model.  The
  control has the same results on all of them.
- Later entries were made in one pass: all files are compiled as far as possible,
  each with the failed lemmas assumed, and the theorems resting on a failed lemma
  are found from the dependencies between the lemmas.  Examples in files which
  come after a failed one are then not all compiled, so `computed_values_changed`
  may be incomplete.
- Many notes use C51 or C57.  These theorems say that a good call has just one
  result, given by a description which does not use any function of the model.
  A good call satisfying their hypotheses on which the edited model has another
  result therefore refutes them for the edit.
