# Formal model of openemsh

## Approach

The C++ source in /repo is read as text and modelled, function by function, as
total computable Gallina functions. Each definition cites the file and lines it
models. Model files (`*Model.v`) hold no proofs; `*Spec.v` hold small
specifications; `*Proofs.v` hold lemmas; `*Examples.v` hold concrete inputs;
`Properties*.v` hold the property theorems, an `Example` meeting the hypotheses
next to each, and `Print Assumptions`.

A theorem whose name ends in `_refuted` exhibits an input for which the natural
claim is false of the model. They are findings about the code; see the list at
the end.

### General modelling choices

* In `Circle*` numbers are the reals of the standard library.
* **double** is modelled elsewhere by exact rationals `Q` (computable, no axioms): no
  rounding, no NaN, no infinity, but in `Round*`: `double` there is the nearest
  binary64 number, ties to even, and the meshing of an axis is modelled again with
  each operation rounded; with no rounding it is the model of `Manager*` (C65_exact). `Coord ==` is the real tolerance test
  `|a-b| < 1e-8` (coord.cpp 28-30), not rational equality.
* **size_t** is `nat`/`N`, unbounded.
* **pointers**: timepoints are addresses (`nat`) chosen by an arbitrary
  allocator among the free ones (an address may be reused after a collection);
  edges, polygons, policies, intervals and conflicts are identified by their
  position in the vector that owns them.
* **undefined behaviour** is a distinct outcome, not a default value: freed
  timepoint dereferenced, `front()` of an empty vector, null pointer followed
  (`UB`, `Dangling`).
* **loops** with no structural bound take fuel and return a distinct
  out-of-fuel outcome (`None`, `Running`); termination theorems give a
  sufficient fuel, and non-termination theorems say that every fuel runs out.
* **std::ranges::sort** is any function that returns a sorted permutation when
  the comparison is a strict weak order on the elements; nothing is known
  otherwise. Theorems hold for every such function.
* Progress bars and the drawing of Qt widgets are not modelled.

## Files

| files | models | properties |
|-------|--------|-----------|
| `Hist*`, `Tree*`, `PropertiesHist` | utils/tree_node, utils/state_management | C01-C11, C47, C48 |
| `App*`, `PropertiesApp` | app/steps.hpp, app/openemsh, output guard of main.cpp | C12-C15 |
| `Interval*`, `PropertiesInterval` | domain/mesh/interval, meshline_policy fields | C16-C25 |
| `Manager*`, `PropertiesManager` | domain/meshline_policy_manager, too close policies, fixed lines, edits of policies and intervals | C26-C32, C49, C50 |
| `Geom*`, `PropertiesGeom` | domain/geometrics | C36-C40, C42 |
| `Board*`, `PropertiesBoard`, `PropertiesCover`, `PropertiesRun`, `PropertiesDiag`, `PropertiesLines`, `EndSpec`, `PropertiesEnd` | domain/board, domain/conflict_manager, domain/conflicts, domain/material, utils/vector_utils | C33-C35, C41, C43, C51-C57 |
| `Infra*`, `PropertiesInfra` | infra/parsers/parser_from_csx, infra/serializers/serializer_to_csx, domain/global, ui/qt/edit/edit_model_global | C44-C46, C58-C61 |
| `Number*`, `PropertiesNumbers`, `FileRunProofs`, `PropertiesFiles` | no model of their own: spelling of numbers, whole program from file to file | C62, C63 |
| `VisibleSpec`, `GridProofs`, `BoardVisibleProofs`, `VisibleRunProofs`, `PropertiesVisible` | no model of their own: what shows of the sides of boxes | C64 |
| `Round*`, `PropertiesRound` | domain/mesh/interval and its calls in domain/meshline_policy_manager, each operation rounded to a double | C65 |
| `Locate*`, `PropertiesLocate` | domain/geometrics/polygon relation_to, any shape (model of `Geom*`) | C66 |
| `Shape*`, `PropertiesShape` | no model of their own: what shows of the sides of rectilinear polygons | C67 |
| `Gui*`, `PropertiesGui` | ui/qt/main_window, the caches of ui/qt/processing_view and ui/qt/structure_view | C68, C69 |
| `Edit*`, `PropertiesEdit` | ui/qt/edit, the steps of app/openemsh and the return to a former timepoint, on the board | C70, C71 |
| `Scene*`, `PropertiesScene` | ui/qt/processing_view and ui/qt/utils/nodegraph: the nodes and wires of the graph view | C72-C74 |
| `Select*`, `PropertiesSelect` | selection, highlighting and visibility in the graph view | C75 |
| `Order*`, `PropertiesOrder` | no model of their own: the order of the policies of an axis | C76 |
| `Logger*`, `PropertiesLogger` | utils/logger, ui/cli/logger, ui/qt/logger, main.cpp without the interface | C77, C78 |
| `Shift*`, `PropertiesShift` | no model of their own: a design that is moved | C79 |
| `Plantuml*`, `PropertiesPlantuml` | infra/serializers/serializer_to_plantuml | C80 |
| `Structure*`, `PropertiesStructure` | ui/qt/structure_view: the items of a scene, the lines shown | C81 |
| `Display*`, `PropertiesDisplay` | ui/qt/main_window, ui/qt/structure_view, ui/qt/processing_view: planes, lines, modes and wires shown at each timepoint | C82 |
| `Sync*`, `PropertiesSync` | ui/qt/structure_view/structure_scene, ui/qt/processing_view/processing_scene: the selection told from one to the others | C83 |
| `Delegate*`, `PropertiesDelegate` | ui/qt/edit/edit_delegate, ui/qt/edit/edit_model_meshline_policy: the dialog of a policy | C84 |
| `Circle*`, `PropertiesCircle` | domain/geometrics/polygon (`circle_to_points`), on real numbers | C85 |
| `Layout*`, `PropertiesLayout` | ui/qt/utils/nodegraph/container, node, processing_scene: where the nodes of the graph are put | C86 |
| `Progress*`, `PropertiesProgress` | utils/progress, ui/cli/progress, ui/qt/progress and the loops of the steps that tell them: what bars show | C87 |
| `Pretty*`, `PropertiesPretty` | infra/serializers/serializer_to_prettyprint, utils/to_string: the report of a board | C88 |
| `RoundClose*`, `PropertiesRoundClose` | meshline_policy_manager, conflict_too_close_meshline_policies: too close policies in doubles | C89 |
| `Unseq*`, `PropertiesUnseq` | state_management, tree_node: the loops with std::execution::unseq | C90 |
| `Auto*`, `PropertiesAuto` | state_management: when timepoints are collected without being asked (model: `HistModel`) | C91 |

## Properties

| id | what is proved of what | how |
|----|-------|-------|
| C01 C03 C09 C47 | tree of timepoints, Caretaker, Originators, GC, with an adversarial allocator | refinement of a machine that keeps a full snapshot for each timepoint (`HistSpec.v`), invariant by induction on operation sequences; refutations for clients that break the discipline |
| C02 | garbage collection | characterisation of the timepoints kept, by induction on the tree |
| C04-C08 C48 | user history with browsing position, reset | invariants on operation sequences; refutation of C08 while browsing |
| C10 C11 | annotations; tree functions | induction on the tree |
| C12-C14 | steps, run, run_next_step, go_before on top of the Caretaker, each step creating an arbitrary number of timepoints | finite tables by computation, histories by induction; refutations for idle steps |
| C15 | output guard of main/cli | case analysis; refutation for PlantUML |
| C16-C21 | find_ls, validity, adjust_d, adjust_smoothness with fuel | well-founded arguments on Q, explicit bounds, closed form |
| C22-C25 | Interval::mesh, d_init, Side | list induction on Q |
| C26-C32 C49 C50 | policies, closest pair, conflict loop, intervals, mesh, fixed lines, edits, on one axis | sortedness, decreasing measure, invariants on reachable axes |
| C33 C34 | colinear edges | permutation invariance; invariant of the double loop that groups edges; uniqueness |
| C35 | edges in polygons | invariants of the detection and of the merging loop, union of ranges on a line |
| C36-C40 C42 | bounding, rotation, normals, overlap, merge, relation_to, axis tables | algebra on Q, case analysis |
| C41 | materials, ambient material | maximality over lists |
| C43 | find_consecutive_matches | list induction; uniqueness of the specification |
| C51 | Board::Builder | invariant of the additions |
| C52 | adjust_edges_to_materials | loop invariants on the board |
| C53 | detect_individual_edges | loop invariants on the board |
| C54 | the steps from ADJUST_EDGE_TO_MATERIAL to DETECT_INDIVIDUAL_EDGES | composition of the invariants of the steps on a board as built |
| C55 | all the steps, shapes to lines | composition of C54, C57, C31 |
| C56 | absence of undefined reads, and end, of the whole run | a predicate on runs (never dangling, stable with more fuel, ends) composed through the steps; every edge of a board as built meets a polygon at two points or is skipped; point location of C40 |
| C57 | angles and zones of diagonal edges | loop invariants, union of merged ranges; a point on a diagonal edge is in a zone (`BoardZonedProofs`) |
| C44 | parse_primitive_* | computation of each projection, against a spec of solids (`in_solid_box`, `prism`, `ball`, `cylinder`) |
| C45 C46 | numbers of the serializer; the dialog of global parameters | rounding on Q, digits; case analysis |
| C58 C59 | reading of a document | induction on the document, frame of the builder |
| C60 C61 | writing, then reading | round trip of numbers and lists of numbers, frame of the document |
| C62 | spelling of numbers (`NumberSpec.v`) | induction on digits |
| C63 | reader, steps and writer composed | C58, C56, C55 and C45; an invariant on what polygons were drawn with |
| C64 | no model of its own: detection and solution of edges in polygons, on boards of boxes with coordinates equal or 0.0002 apart | the points where an edge meets the sides of a box are exact there (`GridProofs`); sorted and without repetition they are a tolerance apart along the edge; each range registered has both ends in the box (`BoardVisibleProofs`), so C35 gives hidden points; then C54, C55, C56 |
| C65 | `RoundModel.v`: `double`, and the functions of C16-C32 about lines, with a rounding after each operation | `double` is the nearest (`RoundProofs`); a run of `find_ls` as a relation, its spacing (`RoundLinesProofs`); `adjust_d` ends because the tolerance is above the roundings (`RoundSolveProofs`, `RoundMeshProofs`); shape of the cells of an interval (`RoundCellProofs`), of neighbours together (`RoundAxisProofs`, `RoundRunProofs`), detection (`RoundDetectProofs`); all lines are doubles (`RoundDoubleProofs`); counterexamples (`RoundCounterProofs`) |
| C66 | `relation_polygon` of `GeomModel.v`; `enclosed` of `LocateSpec.v` is the even-odd rule | the rule is the same in all directions, by a telescoping sum of cones along the closed chain (`LocateProofs`); on a grid the tests of orientation are exact, so each ray of the code counts what the rule counts, inward or outward (`LocateRayProofs`) |
| C67 | no model of its own: detection and solution of edges in polygons, on boards of rectilinear polygons on a grid of 1/N, N at most 3535 | each point of the border on an edge is one of the points found or in a range whose ends are (`border_met`), so between two points in a row all is on one side of the border or on it; one point of a registered range is located IN, exactly by C66 on the grid of 1/2N (the middle of two points), hence the range is in the polygon (`ShapeVisibleProofs`); then as C64 (`ShapeRunProofs`) |
| C68 | `GuiModel.v`: the window, its two views with their cached scenes, its buttons, on top of the history and the pipeline; a scene is the list of the states read when drawing | a scene drawn at a timepoint stays true there as long as it is pinned: every operation of the discipline of `GuiSpec.v` writes at new timepoints only (`good_step`, `GuiHistProofs`); the operations of each action are those of `action_ops`; an invariant of the window over sessions (`showing`/`shut`, `GuiProofs`); concrete sessions by a checker (`GuiExamples`) |
| C69 | the same, with the files | what is written is read at the current timepoint (`write_ok`), an action that changes the timepoint marks the document unsaved (`done`); what one action writes, where, and what it leaves alone (`save_csx_holds`, `write_csx_csx`) |
| C70 | `EditModel.v`: the dialogs, on the board of `BoardModel.v` with the annotated ancestors of the current timepoint | a step that makes no timepoint changes nothing (`idle_same`), so annotations are lost only there; global parameters: two runs from boards with the same angles but for flags set in zones end alike (`do_step_alike`, naturality of sorts), an invariant of all dialogs says that the timepoint gone back to is that of the first run (`edits_tidy`); lines only grow if no dialog finds an annotation from before the mesh (`keeps`); the dialog of a zone: steps that do not look at zones commute with changing them (`unzoned`), so from both timepoints it may go back to the axes are those of the last two steps from the zones written (`zone_written`) |
| C71 | the same | the last steps of a run with zones are all annotated (`opened_back`); without zones the annotation of MESH is lost (`next_stuck`); the oldest timepoints of a run whose first step reverses nothing (`opened_oldest`), the first step does not look at angles (`adjust_blind`) |
| C72 | `SceneModel.v`: the nodes made of a board and the wires between them; the pointers that the board model leaves out (origins of policies, zones of intervals, interval and policy of lines) are any that lead to objects of the board (`links_sound`) | each loop adds one node per object (`nodes_made`), pointers lead to the board in all sessions by an invariant of steps, dialogs and going back (`valid`, `fine_all`), wires are the pointers (`wires_are_links`), no object has two nodes as no edge is a side twice (`stands_once`) |
| C73 | the same, with the walks along wires | the walk of a node marks before it descends, so it ends within the number of nodes and finds the transitive closure (`traverse_spec`, by the set of nodes not yet found) |
| C74 | the same, with the columns of an axis | a rank that grows along origins: a policy made of two too close ones comes after both in the list (`columns`, `board_columns`) |
| C75 | `SelectModel.v`: selected, highlighted and hidden nodes; clicks, selections taken over from other views, Escape, changes of mode | an invariant says by whom each node is highlighted (`ok`), a second one which nodes are hidden (`neat`, `plain`), for each gesture (`gesture_fine`) |
| C76 | `ManagerModel.v` and `IntervalModel.v`, unchanged | two runs side by side: policies at the same place form clusters that are merged into the same kind in any order (`csame`, `csame_turn`), so the same places remain (`solve_paired`); then an address of one axis goes with an address of the other (`alike`) and all steps keep that, up to equality of fractions (`mesh_alike`) |
| C77 | `LoggerModel.v`: the map of sinks, the two kinds of sinks, standard input as a list of lines, the question loop with fuel | invariant over any sequence of calls (`good`), induction on the sinks (`log_all_spec`) and on the input (`ask_answered`, `ask_ended`) |
| C78 | `LoggerModel.main`, on top of the output guard of `AppModel.v` | by cases; agrees with the model of C15 on the files written |
| C79 | no model of its own: the whole run of `BoardModel.v` on two designs | simulation: a relation between the two boards (`mb`) kept by each function of each step, from the lemmas on segments and polygons (`Shift*Geom*`) and on an axis (`finish_moved`) |
| C80 | `PlantumlModel.v`: the diagram as a list of statements, and their text | the list of declared states is computed from the board (`plantuml_gives`), then shown to have each once (`names_once`, `name_there`); statements are those of the pieces of the objects (`piece_in`, `own_piece`); all reads are of what is there (`plantuml_ends`, from the invariant of C72 and `well_reached`) |
| C81 | `StructureModel.v`: the figures drawn in the scene of a plane, the rectangle of the scene being any | the objects drawn are computed from the board (`shown`, `populate_draws`); what each reads is there (`drawn_ends`) by an invariant of all steps and dialogs (`full`, `fit`): edges stay where they are, the edges of a conflict and the angles of a zone belong to the axis, policies are consistent, too close ones solved; then the points covered by each figure |
| C82 | `DisplayModel.v`: the settings of both views, of each scene they keep, and the buttons pressed; which timepoint an action leads to is an input | the window does what a small machine does, with what there is to see at each timepoint (`did`, `session_looks`, `DisplayProofs.v`); invariants of that machine over all sessions (`looks_*`, `put_tells`, `put_stepped`) |
| C83 | `SyncModel.v`: the slots of the graph and of three scenes that call each other, with their locks; calls nested deeper than a bound are a distinct outcome | each slot in closed form, by the locks held (`scene_counterparts_locked`, `graph_changed`, `graph_counterparts`, `scene_changed`, `SyncProofs.v`); an invariant of sessions (`busy`, `steps_end`); the outcome does not depend on the bound (`call_more`) |
| C84 | `DelegateModel.v`: the cells of the dialog of a policy, the cells painted last, and what the combo boxes make of them | an invariant of dialogs used when up to date (`sane_used`); coherence of the policies of a board is part of the invariant of sessions (`sane`, `SceneValidProofs.v`) |
| C85 | `CircleModel.v`: the points of a circle, on the reals of the standard library, with the sense, the axes of sides and the bounding box redone on reals | the points are a period of a function of all indices; addition formulas; a side seen from the point `k` further is `4 r² sin(d/2) sin(kd/2) sin((k-1)d/2)`; the area is `2 n r² sin d` |
| C86 | `LayoutModel.v`: `Container::fit` with its map of columns, the stacks of the scene, the moves of a node; a division by zero gives no number | an item is at its column's first top, plus the heights of the items of the column before it, plus as many gaps (`fit_at`); the four spacements are then one computation (`gaps_ok`) |
| C87 | `ProgressModel.v`: the loops, counters and ticks of each step, the counts both bars make of a tick, `QProgressBar::setValue` as documented | the exact list of counts for each step by induction on its loops, then monotonicity, bounds and last count from these lists; the rounds of close policies by induction with the lemmas of C28 |
| C88 | `PrettyModel.v`: what the visits write, as pieces, then their text; visits that are not overridden write nothing | a reader written apart from the writer (`PrettySpec.v`, a state machine that refuses what is out of place), run on each section by induction; that nothing is missing on the board as for C80; solved conflicts through the loop of `SOLVE_ALL_EIP` and what later steps leave alone |
| C89 | `RoundCloseModel.v`: the functions of C27 and C28 with a rounding after each operation | the invariants of `ManagerProofs.v` over the rounded functions; rounding keeps the order and fixes doubles, so that what looks farther than a double limit is; the middle of two doubles is between them as twice a double is a double; `crowded` axes become `tame` ones, then C65 |
| C90 | `UnseqModel.v`: the calls of the unsequenced loops as lists of parts, any of which may come between the parts of other calls; destructions at any moment; elsewhere (C01-C11 and what is built on it) these loops are sequential | parts of distinct objects commute, so that an interleaving is brought back to the sequential order by induction; a run with destructions is a run without them, less the destroyed objects; objects are distinct by induction on reachable worlds; the operations of the history with any collector and any jump, so that worlds reached with unsequenced loops are those reached with sequential ones |
| C91 | `HistModel.v` as it is: the flag auto_gc and the two callers that look at it | `AutoSpec.v` says which worlds are reached without touching the flag, what is needed for a set of timepoints, and which operations may remove; the flag and the pins are followed through all operations, and what is left is the equivalence proved for the collector (C02), at the history cut by the new timepoint or the pins less the unpinned one; that nothing is left over is an invariant of clients that remember or pin before they leave (C91_nothing_left), not of others (C91_always_refuted); the operations of the application (`AppModel.v`) keep to that (C91_run, C91_back), and what the steps do never leaves a timepoint nor touches the flag (C91_steps) |

Statements in full: `properties.jsonl`. Theorems of each: `MANIFEST.json`.

## Modelled, and not

Modelled: utils/tree_node, utils/state_management, utils/vector_utils,
utils/signum, app/steps.hpp, app/openemsh (run, run_next_step, go_before, edition,
can_*), the output guard of main.cpp and
cli.cpp, the options of cli.cpp about the mesher, domain/geometrics but for what
follows, domain/mesh, domain/meshline_policy_manager, domain/conflict_manager,
domain/conflicts, domain/material, domain/board, domain/global, the edits of policies,
intervals and global parameters of ui/qt/edit, the actions of ui/qt/main_window (open, save,
close, edit, undo, redo, steps) and the caches of its views, the nodes and wires of the
graph view with selection and highlighting, the items of the structure view, the settings of both views, the parser of CSX files and the serializer to CSX
files.

Simplified:

* `angle()` of two edges (edge.cpp 71-86, `acos`) is a parameter of the model:
  theorems hold for every function from pairs of edges to rationals.
* The history and the board are modelled apart: the states of the objects of the
  board are plain values (their current state), and the history is modelled over
  objects with arbitrary states. `AppModel.v` ties the two by letting each step
  create any number of timepoints and write any objects. `EditModel.v` has the board, and of
  the history the annotated ancestors of the current timepoint with the board there; what
  going back leaves as it is (angles, zones, policies of fixed lines) is as in the code.
* One axis stands for the three in `Manager*`; `Board*` has the three.
* In the model of the window the board, the editions and the parser are any functions to
  lists of operations on the history; theorems assume a discipline (`obeys`, GuiSpec.v):
  permitted operations, registration and writing at timepoints just created, as the domain
  code does by calling `make_next_timepoint` before it writes.
* In the graph view, what Qt does on hiding and selecting is modelled as documented
  (SelectModel.v); titles of nodes, which can be selected too, are left out, and so is the
  mode STRUCTURE_VIEW.
* In `DisplayModel.v` a scene is its settings; the timepoint that an action leads to is an input.
  Selecting in the structure view shows nodes of the graph that the mode STRUCTURE_VIEW hides:
  left out there.
* In `SyncModel.v` items are numbers, and what Qt does when items are selected or hidden is stated
  at the top of the file.
* In `DelegateModel.v` the cells painted are an input, and the two rows with an enumeration are
  modelled cell by cell.
* In the structure view, the rectangle of the scene is any, not that which Qt works out.
* In `LayoutModel.v` the sizes of items are inputs; Qt's layout of texts and ports, and when it
  works out the size of a container in another, are left out.
* Names, colours, ids and the visitor pattern are left out.
* A document is a list of trees of named nodes with attributes and text (what
  pugixml gives); XPath queries are those of the code, by name. `from_chars` and the
  conversions of pugixml (`as_double`, `as_uint`) are modelled on decimal texts, with exact
  values instead of the nearest double; hexadecimal, `inf` and `nan` are not.
  `circle_to_points` is a parameter there: any function, not empty where it matters; it is
  modelled by itself in `CircleModel.v`, not joined to the boards, whose numbers are rational.
  The text of a number written by pugixml's `set_value(double)` is a parameter.

Not modelled: that a part of an unsequenced call may itself be split (C90 takes the jump and the two
erasings of an object as wholes), and whether `std::weak_ptr::lock` may be called in such a loop at all
(the standard excludes functions that synchronise), rounding of doubles but in the
meshing of an axis (C65) and the merging of its policies (C89), what the Qt interface draws but for
the nodes, wires and items above, the parsing of options by CLI11 (C59 takes the options as a list of settings), the colours
of the report (C88), the text of XML files.

## Trusted base

* Coq 8.16.1's kernel, including its virtual machine (`vm_compute` is used in
  examples and refutations).
* `Print Assumptions` answers "Closed under the global context" for every theorem
  of `Properties*.v` but those of `PropertiesCircle.v` (C85): no axiom is used, neither ours nor
  the standard library's.
  Those depend on the axioms of the standard library's real numbers,
  `ClassicalDedekindReals.sig_forall_dec`, `ClassicalDedekindReals.sig_not_dec` and
  `FunctionalExtensionality.functional_extensionality_dep`; C85_sense, C85_never, C85_tiny and
  C85_sense_refuted also on `Classical_Prop.classic`.
  When all modules are inspected, the members of the standard library's sealed modules
  `Coq.Reals.Rdefinitions.RbaseSymbolsImpl` (`R`, `Rabst`, `Rrepr`, `Rquot1`, `Rquot2`, `R0`, `R1`, `Rplus`,
  `Rmult`, `Ropp`, `Rlt` and their `_def`s) and `RinvImpl` (`Rinv`, `Rinv_def`) show up too; they are
  defined there, not assumed.
  The seven axioms of `Coq.ssr.ssrunder.Under_rel` show up when all modules are
  inspected because a standard library file that is loaded loads ssreflect; no theorem depends
  on them.
* The model itself: that each definition says what the cited lines do. This has
  been checked by reading only, the code was not run.

## Findings

Behaviours of the model, hence of the code as read, that contradict its
documentation or what a user would expect. Numbers are those of the theorems when
there is one.

History and pipeline

1. Policies of fixed lines are created with a null init timepoint, so they are
   not reverted by undo (C47).
2. Board, Angle and zone conflicts are not registered with the Caretaker: their
   state is not reverted (C47_unregistered_not_reverted).
3. A second write of an object at the same timepoint is dropped
   (C09_second_write_dropped). One consequence: an interval overlapped by two zones keeps only
   one link to a conflict.
4. A step that creates no timepoint loses its annotation: go_before does nothing,
   run_next_step runs it forever (C13_go_before_refuted, C14_idle_step_livelock).
5. After a reset the root keeps its annotation (C48).
6. PlantUML output overwrites an existing file without --force
   (C15_plantuml_overwrites_refuted).
7. An object that outlives its creation timepoint dereferences a freed timepoint
   (C03_outliving_object_refuted).
8. go_and_remember while browsing breaks undo
   (C08_undo_after_jump_while_browsing_refuted).

Intervals

9. find_ls never ends for d <= 0 or dmax <= 0; two policies at the same place
   always hang auto_solve_d (C18).
10. An accepted edit of d or dmax to a non positive value makes the next run hang
    (C49).
11. The smoothness rule is violated around the middle of an interval (C23).
12. The documented criterion on the last space is not checked by is_ls_valid (C19).
13. auto_solve_d computes a dmax that is not used in the same call; a policy's d
    lowered by its second interval does not match the first (C24_on_axis_refuted).

Policies and lines

14. The too close policies loop never ends if a policy of the closest pair is
    already in a conflict (C28_stuck).
15. Merging can displace a policy by more than proximity_limit, up to 5/2 of it
    (C28_replaced, C28_within_limit_refuted); a fixed line can be moved
    (C32_stays_refuted).
16. A fixed line is not added if a disabled policy is there (C32_enabled_refuted).
17. The outer lines of extreme policies are missing, a single HALFS or THIRDS
    policy gives no line (C31_no_line, C31_outer_policy).
18. Meshing an axis again duplicates ONELINE lines (C31_mesh_again).
19. The reported number of cells multiplies numbers of lines (C31_cell_count_refuted).
20. Zones use lmin rather than diagonal_lmin, and replace dmax even by a larger one
    (C31_zone).

Geometry

21. Overlap and merge are wrong for descending diagonals (C39_diagonal_refuted).
22. Shapes of area under 1e-8 are COLINEAR and get no normals (C37_small_refuted);
    small crossing edges are said to be OVERLAPPING (C39_small_refuted).
23. intersection() of straight segments gives the crossing of their lines even if they
    are apart (C39_intersection_apart_refuted).
24. The retry loop of the point location may run forever (C40_ends_refuted).

Board

25. A conductor with mue or epsilon different from 1 is taken for a dielectric
    (C41_deduce).
26. An edge can be in two conflicts of colinear edges, because the tolerance
    equality is not transitive (C34_classes_refuted).
27. Two polygons of one priority that share a side with the same normal both
    dismiss it: no policy there (C35_common_side_refuted).
28. A fully covered edge may stay meshed if ranges have mixed orientations
    (C35_mixed_refuted), which depends on the order of polygons (C35_order_refuted).
29. adjust_edges_to_materials may follow a null inner material (C52_null_refuted),
    and ignores the priority of the outer one.
30. A meshed edge without a normal and alone gets no policy; a box of area under 1e-8
    gets no line at all (C54_no_side_refuted).
31. The crossing of a diagonal side with a horizontal or vertical side never gives an angle
    (C57_crossings, C57_straight_refuted).
32. Seen while reading, no theorem: solve_angles ignores the zone's own minimal
    angle; an angle's link to its first axis' policy is overwritten by the second;
    zones of one axis from two planes are not merged (TODO in the code); the
    comparators of diagonal ranges are not strict weak orders (the model takes the
    sort to be some permutation there: `permutes`).
33. An edge shorter than the tolerance that crosses a diagonal one: the vector of
    intersections has one element and [1] is read (C56_short_refuted).
34. A polygon with vertices at about the same height makes the whole run loop
    forever (C56_stuck_refuted).

Files

35. A curve is recorded flat, at its lowest place (C44_curve_refuted); a cylinder
    with half its radius and flat (C44_cylinder_refuted).
36. A polygon, linpoly or curve without vertices is undefined behaviour
    (C44_no_vertex_refuted).
37. Polygons and linpolys are recorded on their plane even if that plane is not
    wanted; a linpoly of length zero gets no fixed line where a polygon gets one
    (C44_linpoly, C44_polygon).
38. A negative priority is read as 0 (C44_priority_refuted).
39. DeltaUnit is read as an unsigned integer, on ContinuousStructure rather than on
    the grid: a unit of 0.001 sends all lines to 0 (C59_unit_refuted).
40. A space or a plus before a number is an error, junk after it is ignored
    (C59_space_refuted).
41. The parser prefers openEMS/ContinuousStructure, the serializer
    ContinuousStructure: with both, what is written is not read back
    (C61_other_refuted).
42. Saving without the parameters removes the lines fixed by the user
    (C61_fixed_refuted); the parameters of diagonal edges are never saved
    (C60_diagonal_refuted).
43. Lines closer than 1e-6 are written as one (C45_distinct_refuted).
44. The dialog of global parameters resets fields it does not show, and changes
    values that need more than six digits (C46_hidden_refuted,
    C46_unchanged_refuted).
45. Without a BackgroundMaterial the background is null (C58_background).
46. Seen while reading, no theorem: the serializer ignores the failure to save
    the file.
47. The command line accepts any dmax, lmin or proximity limit; with a dmax of 0 the
    run never ends (C63_options_refuted).
48. Points beside a box, closer than 1e-8 divided by its height, are taken for points
    inside of it: a small box beside another one loses its four sides
    (C64_small_refuted; sizes of 1e-5, the unit being up to the user).
49. Rounding puts the sum of cells of 0.2 at 1.9999999999999998 instead of the middle at
    2, and one more line is kept: a cell of 2e-16 and two equal lines
    (C65_distinct_refuted; ONELINE policies at 0 and 4, a zone with dmax 0.2).
50. The tolerance of `is_ls_valid` is absolute: with policies at 0 and 1e9 and dmax
    1000000.1 no d is ever valid and `adjust_d` never ends (C65_far_refuted;
    coordinates above 2^28).
51. Sums stop growing at 2^53: with policies at 0 and 2^55 and dmax 1 `find_ls` never
    ends (C65_stuck_refuted).
52. A ray is taken for going by a vertex when it goes near it, and both sides that end
    there are then counted: with a point in the middle of the left side of a box, 1e-9
    below the point to be located, an inner point is OUT and an outer point is IN
    (C66_near_refuted).
53. A polygon drawn as two squares that meet in a corner and are gone round in opposite
    ways has no signed area, so no side of it has a normal: its outer sides, which show,
    have no policy (C67_area_refuted).
54. By 52, the lower side of a box is dismissed for being inside of a polygon that is
    all on its left, 1e-9 below the height of a vertex of it (C67_near_refuted).
55. "Fit" is never disabled and asks the views for the scene of the current timepoint:
    without a document (no file given, or after a file that fails to parse)
    `std::map::at` throws in a slot and the program aborts (C68_fit_refuted).
56. Going back one step while browsing the history, then undoing, does not show again
    what was shown; it is the finding of C08, at the level of the buttons
    (C68_undo_step_refuted).
57. The result of writing the file is ignored (serializer_to_csx.cpp 130): a document
    whose saving failed (disk full, no permission) is marked as saved, and the window then
    closes without a question (C69_saved_refuted).
58. When closing, answering "save" then declining to overwrite (or a file that can not be
    read again) closes the window all the same: the work is lost (C69_close_refuted).
59. Opening another file gives up unsaved work without a question (C69_open_refuted).
60. After a file that fails to parse, the former document is kept, marked unsaved, with
    the input path of the failed file: saving it when closing writes over its file the
    structure of the failed file with the lines of the former document
    (C69_right_without_document_refuted).
61. The same, if an edition had just been undone: the objects of the former document are
    not known to the history any more, and those that were not read since the undo follow
    a pointer to a freed timepoint (C69_close_dangling_refuted).
62. A step that finds nothing to do makes no timepoint, so the annotation of the next step
    is dropped (openemsh.cpp 161-166, state_management.cpp 235-237) and a dialog that wants
    to go back before that step goes nowhere: it runs the steps on top of the former mesh.
    On a board without diagonal edges the dialogs of edges, angles and intervals never
    remove a line (C70_stay); confirming the dialog of an interval without a change gives
    each line twice, that is cells without a size (C70_interval_refuted).
63. The same for the buttons: on such a board, after "previous step" the button "next step"
    does nothing for ever (C71_stuck); with diagonal zones but no policies too close, three
    steps back and three forth detect the intervals again and give each line twice
    (C71_three_refuted).
64. The dialog of the global parameters goes back before the zones are detected: all other
    editions are lost without notice (C70_global, C70_global_all).
65. Of the fields of the dialog of a diagonal zone, the number of lines and the minimal
    angle do nothing: no step reads them, the global ones are read instead (C70_zone).
66. The dialog of a policy does not remove the lines of the former policy either, on a board
    without diagonal zones and policies too close: disabling a policy adds lines
    (C70_stay_policies).
67. If the first step reverses no edge, it leaves no timepoint: back at the beginning, "next
    step" does nothing for ever (C71_restart); one step less back, "next step" looks for
    angles again and adds each of them once more, since angles are not taken back
    (C71_doubled).
68. In the graph view, changing to the mode that shows the selected chain only unselects and
    hides all selected nodes but those related to the first one, as the change is not
    protected against the signals it causes (C75_switch_refuted).
69. Intervals of the same size are visited in an order that `std::ranges::sort` leaves open,
    and the lines depend on it: three equidistant policies and a zone over one of the two
    intervals give 21 lines or 22, both sorts being right (C76_sort_refuted).
70. The order of the fixed lines counts, by multiples of the tolerance: each is compared to
    the ones before it, and being equal up to a tolerance is not transitive
    (C76_fixed_refuted).
71. `openemsh in.csx`, the output being by default the input, always fails without --force:
    the test on the existence of the output comes first, so the one on the grid of the
    input is never of use (C78_default).
72. A success and "Saved file" are reported if the file could not be written, CSX or PlantUML
    (C78_saved_refuted; 57 is the same in the window), and with the pretty-print format, that
    writes no file (C78_printed).
73. An interactive command line would never end at the end of its input, and takes any known
    letter, offered or not, for an answer (C77_question, C77_offered_refuted); the program
    does not make the command line interactive.
74. A symmetric design may get a mesh that is not symmetric: of two pairs of policies equally
    close the one before is merged first, and the other one may not be close any more
    (C79_mirror_refuted).
75. The mesh depends on the unit of the file, even with the parameters in the same unit: two
    coordinates less than 1e-8 apart are the same (coord.cpp 28-30), and a design of that size
    gets no line at all, with no message (C79_scale_refuted).
76. The PlantUML serializer writes polygon names as they are: a quotation mark ends the title
    of the state, a line end makes two lines of it (serializer_to_plantuml.cpp 115;
    C80_names_refuted). Angles and zones have no state, so a policy made for an angle has no
    arrow that leads to it.
77. Colinear edges have a line in the structure view of both planes that have the axis, but at
    `px` or `py` of their first edge as if the edge were in that plane: in the plane that the
    edges are not in, the line is drawn at the coordinate of another axis
    (structure_conflict_colinear_edges.cpp 25-36; C81_colinear_refuted).
78. In a plane without polygons nor angles, mesh lines, policies and conflicts are drawn as
    points: their length is taken from the rectangle of the scene (structure_view.cpp 238),
    which Qt makes of what was drawn before (C81_flat).
79. The plane chosen is that of the structure view at all timepoints, but that of the graph view
    at the timepoint shown only: choose another plane, undo, and a graph that follows the
    structure view shows another plane than it does (processing_view.cpp 91-94 and 132-137;
    C82_undo_refuted).
80. A new scene takes the lines of the scene shown before in the structure view, and those chosen
    last in the graph view: choose other lines, undo, edit something, and the graph shows axes
    whose lines are hidden or hides axes whose lines are shown (structure_view.cpp 200-202,
    processing_view.cpp 123; C82_edit_refuted).
81. Opening a second file starts the scenes again with all lines and the selected chain, but
    leaves the buttons pressed and the axes of the graph view as they were: `make_current_state_view`
    does not update the buttons, and `clear` does not reset the views (main_window.cpp 608-633,
    processing_view.cpp 41-47; C82_open_refuted).
82. A line whose node is selected while lines are hidden is not selected in the structure view once
    lines are shown: nothing tells the scene again (structure_scene.cpp 321-343 and 412-414;
    C83_shown_refuted).
83. Hiding lines when one is selected takes the selection away from objects of other planes that
    stay visible: the scene that loses the line tells the graph what is left selected in that
    plane, and the graph tells the others (structure_scene.cpp 399-404, processing_scene.cpp
    458-470; C83_hidden_refuted).
84. The dialog of a policy takes the cell of a normal painted last for the one to keep coherent
    with the policy chosen, and the old values are painted by the same function: once the old
    normal is painted alone (the mouse goes over it), choosing a policy changes the "old value",
    makes it editable, and leaves the new normal; OK then closes the dialog and changes nothing
    (edit_delegate.cpp 167-188 and 209-215; C84_painted_refuted, C84_old_refuted).
85. A circle of radius below 5e-5 is seen as flat (its area is under the tolerance of 1e-8), so
    that its edges have no normal: the tolerance on lengths is used on an area (polygon.cpp 79-81;
    C85_tiny, C85_sense_refuted).
86. `Board::add_fixed_meshline_policies` calls `bar.tick(++i)` where `tick` itself adds one
    (board.cpp 617, ui/cli/progress.cpp 49): with n fixed policies the terminal counts from 2/n to
    n+1/n (`C87_fixed`, `C87_fixed_refuted`).  `MeshlinePolicyManager::mesh` does the same with a
    maximum that is one more, the conflict manager with `i++`.
87. The bar of the diagonal angles has the pairs of edges as its maximum while its loops count the
    corners and the pairs of edges of distinct polygons (board.cpp 256-306): it ends full only if all
    polygons are triangles, stops early otherwise (4 of 6 for a square), and passes its maximum with
    polygons of less than three edges (`C87_angles`, `C87_triangles`, `C87_angles_refuted`,
    `C87_flat_example`).
88. With two numbers, `tick` adds one in the window and not in the terminal (ui/qt/progress.cpp 43,
    ui/cli/progress.cpp 60): the window drops the last count, which is past its range.  With p
    polygons the bar of edges in polygons stays at p*p - p + 1, and shows nothing with one
    (`C87_window`, `C87_window_refuted`).
89. The report has a heading for policies that are too close and goes through them, through the
    policies and through the intervals (serializer_to_prettyprint.cpp 65-78, 85-88), but overrides
    none of these visits: nothing is ever written under that heading, and policies are sorted for
    nothing (`C88_close_refuted`).
90. In doubles the distance of two policies is rounded before it is compared: policies
    farther apart than the limit may be merged (`C89_far_refuted`: -2^-60 and 1 with the
    limit 1), and the pair merged first may not be the closest one, which leaves policies
    half of the limit away from where they would be (`C89_closest_refuted`).  The other way
    round is safe: what is left is really apart (`C89_ends_apart`).

## Reading `seeded/LOG.jsonl`

A line lists the proofs that no longer go through after an edit, and the theorems that rest on
them.  That is a sign that the edit breaks a claim, not a proof of it: a script may fail on a term
that is written otherwise and means the same (the control of `ProgressModel.ticks_pre` did).  An
edit with no failed proof is either the same function, which the line says, or led to the theorem
named in `theorems_tightened`.
