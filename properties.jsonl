{"id": "C01", "title": "Time travel restores every tracked object exactly", "statement": "After any history of timepoint creations, object creations, writes, jumps, undos, redos, pins, unpins and collections, the state an object registered with the Caretaker reports is the one last written on the path from the history root to the current timepoint, i.e. the same as if every timepoint stored a full snapshot of all objects. An object that does not exist yet at the current timepoint reports its initial state.", "quantifier": "every finite sequence of Caretaker/Originator operations whose writes go to a timepoint of the current branch not yet written by that object, every allocation choice for timepoint addresses, any number of objects, any state type", "why_tests_cant": "the history tree has unboundedly many shapes and the lazy, delta-encoded representation is only wrong for particular interleavings of writes, jumps and collections", "anchors": ["src/utils/state_management.hpp: Originator::actually_go, set_state, go, erase, get_current_state", "src/utils/state_management.cpp: Caretaker::go_without_remembering, make_next_timepoint, garbage_collector"]}
{"id": "C02", "title": "Garbage collection keeps exactly what can still be visited", "statement": "A collection keeps a timepoint iff it is the current one, pinned, remembered in the user history, or an ancestor of such a timepoint; it drops the annotations and object states of collected timepoints, and changes neither the state any registered object reports now nor the one it would report at any kept timepoint.", "quantifier": "every reachable Caretaker state", "why_tests_cant": "which timepoints are collectable depends on the whole history of pins, undos and branches", "anchors": ["src/utils/state_management.cpp: Caretaker::garbage_collector", "src/utils/state_management.hpp: Originator::erase", "src/utils/tree_node.cpp: TreeNode::cluster, erase_from_descendants, ancestors"]}
{"id": "C03", "title": "No collected timepoint is ever dereferenced", "statement": "If every object whose creation timepoint is collected is itself destroyed by then, no operation ever dereferences a collected timepoint, even when the allocator reuses its address; if an object outlives its creation timepoint, a later jump dereferences freed memory.", "quantifier": "every operation sequence, every address-reuse choice of the allocator", "why_tests_cant": "use-after-free depends on the interleaving of collections and lazy jumps and on the allocator", "anchors": ["src/utils/state_management.hpp: Originator::erase, actually_go", "src/utils/state_management.cpp: Caretaker::garbage_collector, go_without_remembering"]}
{"id": "C04", "title": "Undo and redo are inverse", "statement": "When can_undo(n) holds and the current timepoint is the remembered one, undo(n) followed by redo(n) leads back to the same timepoint with the same user history and the same possibilities of undo and redo; when can_redo(n) holds, redo(n) followed by undo(n) does too.", "quantifier": "every reachable Caretaker state, every n", "why_tests_cant": "the user history is unbounded and the browsing position is represented in two different ways", "anchors": ["src/utils/state_management.cpp: Caretaker::undo, redo, can_undo, can_redo"]}
{"id": "C05", "title": "Multi-step undo is repeated single undo, and can_undo is exact", "statement": "can_undo(n) holds iff n > 0 and n successive single undos each move; undo(n) then gives the same result as n single undos, and when can_undo(n) is false undo(n) changes nothing at all. The same for redo.", "quantifier": "every reachable Caretaker state, every n", "why_tests_cant": "counts and history lengths are unbounded; off-by-one errors show only for particular positions", "anchors": ["src/utils/state_management.cpp: Caretaker::undo, redo, can_undo, can_redo"]}
{"id": "C06", "title": "A new timepoint after an undo discards exactly the redoable entries", "statement": "Creating a timepoint keeps the remembered timepoints up to the one being browsed, in order, drops the later ones, makes redo impossible, and makes the new timepoint a child of the previous current one.", "quantifier": "every reachable Caretaker state", "why_tests_cant": "depends on arbitrary browsing positions", "anchors": ["src/utils/state_management.cpp: Caretaker::make_next_timepoint, stop_browsing_user_history"]}
{"id": "C07", "title": "User history is well formed", "statement": "The user history always starts with the history root, never holds the same timepoint twice in a row, and holds only live timepoints; the browsed position and all pinned timepoints are live.", "quantifier": "every reachable Caretaker state", "why_tests_cant": "invariant over unbounded operation sequences", "anchors": ["src/utils/state_management.cpp: Caretaker::remember_current_timepoint, undo, redo, garbage_collector, reset"]}
{"id": "C08", "title": "Undo right after a remembered jump comes back", "statement": "After a successful go_and_remember from a remembered timepoint to another one, one undo leads back to the timepoint that was current before, with every tracked object in its former state. (True when not browsing the history; false when it happens after an undo.)", "quantifier": "every reachable Caretaker state", "why_tests_cant": "the failing case needs a particular undo/jump interleaving", "anchors": ["src/utils/state_management.cpp: Caretaker::go_and_remember, remember_current_timepoint, undo", "src/ui/qt/main_window.cpp: MainWindow::on_a_mesh_prev_triggered"]}
{"id": "C09", "title": "A write is visible at once, or silently dropped", "statement": "Writing an object's state at a timepoint it never wrote makes it the reported state immediately; writing an immutable state twice at the same timepoint keeps the first one and silently drops the second.", "quantifier": "every object history, every pair of states", "why_tests_cant": "needs all histories of an object", "anchors": ["src/utils/state_management.hpp: Originator::set_state, set_next_state, set_given_or_next_state"]}
{"id": "C10", "title": "Annotations: first one wins, nearest annotated ancestor is found", "statement": "A timepoint keeps its first annotation for ever (until collected); find_first_ancestor_with_annotation[_that] returns the nearest (strict, or including itself) ancestor of the current timepoint that carries a (matching) annotation, and nothing iff there is none.", "quantifier": "every reachable Caretaker state, every predicate", "why_tests_cant": "unbounded branch depth and annotation placement", "anchors": ["src/utils/state_management.hpp: Caretaker::find_first_ancestor_with_annotation_that", "src/utils/state_management.cpp: Caretaker::annotate_current_timepoint, get_annotation"]}
{"id": "C11", "title": "History tree laws", "statement": "ancestors() lists the path to the root, nearest first, without repetition; is_ancestor_of is a strict order converse to is_descendant_of; common_ancestor returns the deepest node that is an ancestor of both and does not depend on the argument order; cluster() lists every descendant exactly once; leafs() the descendants without children.", "quantifier": "every tree, every pair of nodes", "why_tests_cant": "trees have unbounded shape and depth", "anchors": ["src/utils/tree_node.cpp: TreeNode::ancestors, root, common_ancestor, is_descendant_of, is_ancestor_of, cluster, leafs"]}
{"id": "C12", "title": "Steps run once each, in pipeline order", "statement": "run(steps) executes each requested step exactly once, in the fixed pipeline order, nothing else, and remembers the result; run_from_step(s) executes s and all later steps; next() enumerates the same order; indices agree with it.", "quantifier": "every set of steps, every start step", "why_tests_cant": "2^15 subsets, and the agreement of four separately written tables", "anchors": ["src/app/openemsh.cpp: next, that_and_after, OpenEMSH::run, run_all_steps, run_from_step", "src/app/steps.hpp: index"]}
{"id": "C13", "title": "go_before(step) restores the situation in which that step last started", "statement": "After a run in which a step was executed, go_before(step) makes current the timepoint that was current when that step last started on this branch. (True when every earlier step of the run creates a timepoint; false, with go_before doing nothing at all, when the preceding step found nothing to do.)", "quantifier": "every step sequence and every number of timepoints created by each step", "why_tests_cant": "needs all combinations of idle and productive steps", "anchors": ["src/app/openemsh.cpp: OpenEMSH::run, go_before", "src/ui/qt/main_window.cpp: MainWindow::handle_edition_from", "src/utils/state_management.cpp: Caretaker::annotate_current_timepoint"]}
{"id": "C14", "title": "Stepping forward executes the whole pipeline", "statement": "From a freshly parsed board, repeating run_next_step executes the 15 steps one after the other, each once, and can_run_a_next_step turns false exactly after the last one; go_before_previous_step goes back one step. (True when each step creates a timepoint; a step that creates none is executed for ever.)", "quantifier": "every number of timepoints created by each step", "why_tests_cant": "liveness over all per-step behaviours", "anchors": ["src/app/openemsh.cpp: OpenEMSH::run_next_step, can_run_a_next_step, go_before_previous_step, get_current_step"]}
{"id": "C15", "title": "An existing file is never overwritten without permission", "statement": "Without --force, a command line run does not write to an existing file. (True for CSX output; false for PlantUML output, whose path defaults to the input file.)", "quantifier": "every combination of parameters and file existence", "why_tests_cant": "all combinations of flags, formats and file states", "anchors": ["src/app/openemsh.cpp: OpenEMSH::is_about_overwriting, write", "src/main.cpp: main", "src/ui/cli/cli.cpp: cli"]}
{"id": "C16", "title": "Filling half an interval terminates and just covers it", "statement": "For d > 0, dmax > 0 and smoothness >= 1, the line placement stops; its last line reaches the space to fill and its last but one does not; there is no line iff there is no space.", "quantifier": "all real d, dmax, smoothness, s in those ranges", "why_tests_cant": "unbounded real inputs and iteration counts", "anchors": ["src/domain/mesh/interval.cpp: find_ls"]}
{"id": "C17", "title": "Lines of half an interval are strictly increasing and respect dmax and smoothness", "statement": "Successive distances (the first counted from the policy line) are positive, non decreasing, at most dmax, each at most smoothness times the previous one, the first at most smoothness times d.", "quantifier": "all real d, dmax, smoothness, s", "why_tests_cant": "unbounded real inputs and list lengths", "anchors": ["src/domain/mesh/interval.cpp: find_ls"]}
{"id": "C18", "title": "Degenerate distances make line placement hang", "statement": "If d or dmax is not positive and there is space to fill, the line placement never stops (the interval in the code comment 'mesh populated only by D=0 policies does not converge').", "quantifier": "all d <= 0 or dmax <= 0, all smoothness, all s > 0", "why_tests_cant": "a test cannot observe non-termination", "anchors": ["src/domain/mesh/interval.cpp: find_ls", "src/domain/mesh/interval.hpp: TODO BUG comment"]}
{"id": "C19", "title": "The validity check accepts exactly sufficient and conforming placements", "statement": "A placement computed for (d, smoothness, dmax, s) with smoothness >= 1 is accepted iff d <= dmax, it is not empty and it has at least lmin lines; any list accepted has every distance at most dmax and at most smoothness times the previous one, up to the tolerance.", "quantifier": "all real inputs, all lmin, all lists", "why_tests_cant": "unbounded lists and reals", "anchors": ["src/domain/mesh/interval.cpp: is_ls_valid_for_dmax_lmin_smoothness, find_ls"]}
{"id": "C20", "title": "Reducing d terminates, only reduces, and reaches lmin lines", "statement": "For h > 0, d > 0, dmax > 0, smoothness >= 1 and any lmin, the search for d stops; the result is positive, at most d and at most dmax, and gives a half interval with at least lmin lines that passes the validity check.", "quantifier": "all real h, d, dmax, smoothness, all lmin, all policies", "why_tests_cant": "termination and bounds over all reals", "anchors": ["src/domain/mesh/interval.cpp: Interval::adjust_d_for_dmax_lmin, auto_solve_d"]}
{"id": "C21", "title": "Reducing smoothness terminates, stays in [1, original], never adds a line", "statement": "The smoothness search stops; its result lies between 1 and the original smoothness, and the placement with it has no more lines than before.", "quantifier": "all real d > 0, dmax > 0, smoothness >= 1, s", "why_tests_cant": "termination and bounds over all reals", "anchors": ["src/domain/mesh/interval.cpp: Interval::adjust_smoothness_for_s, auto_solve_smoothness"]}
{"id": "C22", "title": "An interval's mesh is strictly increasing, inside the interval, contains its middle, respects dmax", "statement": "The lines produced by an interval are strictly increasing, lie between its two policy positions, include the middle, and two adjacent ones are never farther apart than dmax; distances grow by at most the smoothness factor going away from each policy.", "quantifier": "all intervals with h > 0, all policies and normals, all solved parameters", "why_tests_cant": "reals, all policy pairs, unbounded numbers of lines", "anchors": ["src/domain/mesh/interval.cpp: Interval::mesh, d_init, s"]}
{"id": "C23", "title": "Adjacent distances differ by at most the smoothness factor", "statement": "No distance between adjacent lines exceeds a neighbouring one by more than the smoothness factor (rule of doc/interval.md). False around the middle of an interval: the two central cells, and the last cell before the middle, can be arbitrarily small.", "quantifier": "all intervals", "why_tests_cant": "needs a worst case over reals", "anchors": ["src/domain/mesh/interval.cpp: Interval::mesh", "doc/interval.md.in: Rules"]}
{"id": "C24", "title": "Thirds and halfs rules around a policy", "statement": "The two lines placed by the two intervals adjacent to a HALFS or THIRDS policy are at distance d of each other when both intervals use the same d, at equal distance of the policy (HALFS) or at 2/3 d on the side the normal points to and 1/3 d on the other (THIRDS); ONELINE puts one line on the policy.", "quantifier": "all d, policies, normals", "why_tests_cant": "reals; two separately written tables must agree", "anchors": ["src/domain/mesh/interval.cpp: Interval::Interval (d_init lambdas), mesh", "src/domain/mesh/meshline_policy.cpp: MeshlinePolicy::mesh"]}
{"id": "C25", "title": "Lines of neighbouring policies never cross", "statement": "When an interval is created, each side's d is lowered to the half interval if larger; hence the policy lines on both sides never pass the middle of the interval.", "quantifier": "all pairs of policies", "why_tests_cant": "all reals", "anchors": ["src/domain/mesh/interval.cpp: Interval::Side::Side, Interval::Interval"]}
{"id": "C26", "title": "Policies and normals are always consistent", "statement": "Every meshline policy the managers hold is THIRDS with a MIN or MAX normal, or ONELINE/HALFS with no normal, whatever sequence of requests created them; an inconsistent request adds nothing.", "quantifier": "every sequence of policy creations and conflict resolutions", "why_tests_cant": "invariant over unbounded sequences", "anchors": ["src/domain/meshline_policy_manager.cpp: add_meshline_policy", "src/domain/conflicts/conflict_too_close_meshline_policies.cpp: auto_solve", "src/domain/conflicts/conflict_colinear_edges.cpp: auto_solve", "src/domain/board.cpp: detect_individual_edges"]}
{"id": "C27", "title": "The closest pair of policies is really the closest", "statement": "A pair is reported iff two enabled policies are at most the proximity limit apart; the reported ones are enabled, adjacent, and no other pair of enabled policies is strictly closer.", "quantifier": "every list of policies in any order", "why_tests_cant": "all list lengths, orders and coordinates", "anchors": ["src/domain/meshline_policy_manager.cpp: detect_closest_meshline_policies"]}
{"id": "C28", "title": "Resolving too close policies terminates and leaves all enabled policies far enough apart", "statement": "Starting from policies none of which is both enabled and already in a too-close conflict, the detection and resolution loop stops after at most one conflict per enabled policy and then any two enabled policies are strictly farther apart than the proximity limit; conversely, if the closest pair contains an enabled policy already in a conflict, the loop never stops.", "quantifier": "every list of policies, coordinates and limits", "why_tests_cant": "termination for all inputs cannot be tested", "anchors": ["src/domain/meshline_policy_manager.cpp: detect_and_solve_too_close_meshline_policies", "src/domain/conflict_manager.cpp: add_too_close_meshline_policies"]}
{"id": "C29", "title": "Merging two too close policies", "statement": "The replacement policy lies between the two originals, does not depend on their order, is ONELINE as soon as one of them is, keeps THIRDS and its normal iff both are THIRDS with the same normal, is HALFS otherwise; a consistent pair is always solved and both originals end up disabled.", "quantifier": "all pairs of consistent policies", "why_tests_cant": "case table over reals; order independence is relational", "anchors": ["src/domain/conflicts/conflict_too_close_meshline_policies.cpp: auto_solve"]}
{"id": "C30", "title": "Intervals tile the axis between the extreme enabled policies", "statement": "n enabled policies give n-1 intervals (none for n = 0); they join consecutive enabled policies in coordinate order, each interval starts where the previous one ends, and no enabled policy lies strictly inside one.", "quantifier": "every list of policies", "why_tests_cant": "all lengths and orders", "anchors": ["src/domain/meshline_policy_manager.cpp: detect_intervals"]}
{"id": "C31", "title": "The final axis mesh is sorted, complete and fine enough", "statement": "The lines of an axis are sorted; all lie between the first and the last enabled policy; every enabled ONELINE policy contributes a line at exactly its position; every interval contributes its lines; adjacent lines are at most dmax apart; the reported cell number is the product of the line counts.", "quantifier": "every list of policies and parameters", "why_tests_cant": "reals, unbounded lists", "anchors": ["src/domain/meshline_policy_manager.cpp: mesh, get_meshlines, get_mesh_cell_number"]}
{"id": "C32", "title": "Fixed lines are added once", "statement": "Adding the fixed lines of an axis creates an enabled ONELINE policy for each requested coordinate unless one already exists within the equality tolerance; afterwards every requested coordinate has a ONELINE policy within the tolerance, and repeating the step adds nothing.", "quantifier": "every list of coordinates and existing policies", "why_tests_cant": "all lists; idempotence is relational", "anchors": ["src/domain/board.cpp: Builder::add_fixed_meshline_policy, add_fixed_meshline_policies"]}
{"id": "C33", "title": "Colinear edges resolution depends only on the effective normals", "statement": "The policy created for a group of colinear edges is ONELINE if a meshed edge has no normal, HALFS if both directions are present, THIRDS in the common direction if only one is, none if no edge is meshed; it does not depend on the order of the edges, and reversing all edges swaps MIN and MAX.", "quantifier": "every list of edges", "why_tests_cant": "all orders and lengths", "anchors": ["src/domain/conflicts/conflict_colinear_edges.cpp: auto_solve"]}
{"id": "C34", "title": "Colinear edges are grouped without loss or duplication", "statement": "After detection every pair of colinear edges of the same plane and orientation shares a conflict; an edge appears at most once in a conflict; conflicts never mix planes' orientations.", "quantifier": "every list of edges", "why_tests_cant": "all lists; tolerance based equality", "anchors": ["src/domain/conflict_manager.cpp: add_colinear_edges", "src/domain/board.cpp: detect_colinear_edges"]}
{"id": "C35", "title": "An edge is dismissed only if it is entirely covered", "statement": "After resolution of an edge-in-polygon conflict the edge is not meshed iff the merged covered range is the whole edge (up to tolerance); a partly covered axis-aligned edge stays meshed.", "quantifier": "every axis-aligned edge and list of overlaps", "why_tests_cant": "all lists of ranges", "anchors": ["src/domain/conflicts/conflict_edge_in_polygon.cpp: auto_solve, sort_overlaps_by_p0_by_vector_orientation", "src/domain/geometrics/segment.cpp: merge"]}
{"id": "C36", "title": "Bounding boxes are tight", "statement": "The bounding box of a polygon (or segment) contains all its points and each of its four sides is reached by a point.", "quantifier": "every non empty point list", "why_tests_cant": "all lists", "anchors": ["src/domain/geometrics/polygon.cpp: detect_bounding", "src/domain/geometrics/segment.cpp: bounding"]}
{"id": "C37", "title": "Orientation and outward normals", "statement": "The detected rotation is invariant under cyclic shift of the points and translation, and flips under reversal; for every convex polygon, and for every box given by two opposite corners in any order whose sides and area are not below the tolerance, each edge normal points out of it. Below that area (1e-8, so 100 by 35 micrometres in metres) no edge gets a normal.", "quantifier": "all point lists, all boxes", "why_tests_cant": "all reals and lists", "anchors": ["src/domain/geometrics/polygon.cpp: detect_rotation, detect_edge_normal, detect_edges", "src/domain/geometrics/edge.cpp: Edge::Edge", "src/domain/board.cpp: Builder::add_polygon_from_box"]}
{"id": "C38", "title": "Overlap tests mean sharing a point", "statement": "Two ranges/boxes overlap iff they have a common point (non strict) or a common interior point (strict, for boxes with interior); the tests are symmetric, and reflexive in the non strict case.", "quantifier": "all boundings", "why_tests_cant": "all reals", "anchors": ["src/domain/geometrics/bounding.cpp: does_overlap, does_overlap_strict", "src/domain/geometrics/polygon.cpp: does_overlap, RangeZ"]}
{"id": "C39", "title": "Overlap and merge of colinear axis-aligned segments are intersection and union", "statement": "For two horizontal (vertical) segments on the same line that touch, overlap() is exactly the set of common points and merge() exactly the union; both are symmetric; for non touching ones both report nothing. Two such segments are OVERLAPPING iff they share a point. Segments said to cross share a point and intersection() gives it. None of this holds of descending diagonals, nor of small crossing edges.", "quantifier": "all axis-aligned segments", "why_tests_cant": "all reals", "anchors": ["src/domain/geometrics/segment.cpp: overlap, merge, intersection, bounding, relation_to"]}
{"id": "C40", "title": "Point location in a box", "statement": "For every axis-aligned box and point away from the tolerance band, relation_to says IN iff strictly inside, ON iff on the border, OUT otherwise; every border point of every box is ON. The ray retry loop of any polygon stops unless a vertex is right above or below the point at one to two tolerances, in which case it may run forever.", "quantifier": "all boxes, all points", "why_tests_cant": "all reals; termination of the retry loop", "anchors": ["src/domain/geometrics/polygon.cpp: Polygon::relation_to", "src/domain/geometrics/segment.cpp: Segment::relation_to"]}
{"id": "C41", "title": "Material precedence and ambient material", "statement": "Materials are totally preordered PORT > CONDUCTOR > DIELECTRIC > AIR; the ambient material at a segment is that of a candidate polygon with the highest (priority, material), or the background if there is none; adding a polygon never lowers it.", "quantifier": "all polygon lists", "why_tests_cant": "all lists; monotonicity is relational", "anchors": ["src/domain/material.cpp: operator<=>, deduce_type", "src/domain/board.cpp: find_ambient_material, adjust_edges_to_materials"]}
{"id": "C42", "title": "Axis and plane conversions agree", "statement": "All axis/plane conversion tables describe one orientation convention: converting forth and back is the identity, the axis a horizontal/vertical edge constrains is the one its fixed coordinate measures, reversals are involutions.", "quantifier": "all planes, axes, orientations", "why_tests_cant": "agreement of separately written tables", "anchors": ["src/domain/geometrics/space.cpp: transpose, reverse", "src/domain/geometrics/segment.cpp: transpose, cast, coord", "src/domain/geometrics/normal.cpp: reverse"]}
{"id": "C43", "title": "Consecutive matches are the maximal runs", "statement": "find_consecutive_matches returns, in order, exactly the maximal runs of consecutive matching elements: their concatenation is the list of matches, none is empty, neighbours are separated by a non match.", "quantifier": "every list, every predicate", "why_tests_cant": "all lists", "anchors": ["src/utils/vector_utils.hpp: find_consecutive_matches"]}
{"id": "C44", "title": "Each primitive is projected consistently on the three planes", "statement": "A 3D box read from the input produces on each plane the rectangle of its two in-plane coordinates and the range of the remaining one, whatever corner order the file uses; the priority is kept.", "quantifier": "all boxes", "why_tests_cant": "all reals; three separately written projections", "anchors": ["src/infra/parsers/parser_from_csx.cpp: parse_primitive_box and other primitives"]}
{"id": "C45", "title": "Written lines are the mesh up to the printed precision", "statement": "Each written coordinate differs from the mesh line by at most half a unit of the sixth decimal, the order is kept; two lines closer than 1e-6 can be written as the same coordinate.", "quantifier": "all meshes", "why_tests_cant": "all reals", "anchors": ["src/infra/serializers/serializer_to_csx.cpp: SerializerToCsx::run"]}
{"id": "C46", "title": "Editing global parameters changes only what was edited", "statement": "Committing an edition of the global parameters keeps the parameters not shown in the dialog. (False: the fixed lines and the already-has-a-grid flag are reset.)", "quantifier": "all parameter values", "why_tests_cant": "frame property over all values", "anchors": ["src/ui/qt/edit/edit_model_global.cpp: EditModelGlobal::commit", "src/domain/global.hpp: Params"]}
{"id": "C47", "title": "Objects not handed to the Caretaker are not reverted", "statement": "An object never registered with take_care_of (in openemsh: the board itself, diagonal angles, diagonal zone conflicts, and fixed meshline policies, whose registration is refused because they are built with a null timepoint) keeps reporting the same state through every undo, redo, jump, collection and reset.", "quantifier": "every world, every operation not addressing that object", "why_tests_cant": "negative property over all histories; unit tests register every object they travel with", "anchors": ["src/utils/state_management.cpp: Caretaker::take_care_of, go_without_remembering", "src/domain/board.cpp: Board::add_fixed_meshline_policy"]}
{"id": "C48", "title": "Reset starts over", "statement": "Whatever the history, after reset (done before parsing a file) the only timepoint left is the root, it is current, the user history holds just the root, nothing is pinned or registered, nothing can be undone or redone; every annotation is gone except the root's own, which survives.", "quantifier": "every reachable Caretaker state", "why_tests_cant": "requires reset after arbitrary histories; tests reset at most a small one", "anchors": ["src/utils/state_management.cpp: Caretaker::reset, garbage_collector"]}
{"id": "C49", "title": "An accepted edit never makes the next run hang", "statement": "Whatever values the policy edition dialog accepts, the meshing run that follows ends. (False: a non-positive d is accepted, and with another enabled policy the run then never ends.)", "quantifier": "all axis states, all edited values", "why_tests_cant": "non-termination cannot be observed by a test; the dialog is not tested", "anchors": ["src/ui/qt/edit/edit_model_meshline_policy.cpp: EditModelMeshlinePolicy::commit", "src/domain/mesh/interval.cpp: Interval::auto_solve_d, find_ls"]}
{"id": "C50", "title": "Pointers between policies, intervals and conflicts stay valid", "statement": "After any sequence of additions, merges, detections, edits and meshings, every interval and every too-close conflict of an axis points to policies that exist, and none of these operations follows a pointer to nothing.", "quantifier": "every reachable axis state, every parameter", "why_tests_cant": "memory safety over all sequences of operations; a test sees one sequence, and only crashes on some bad pointers", "anchors": ["src/domain/meshline_policy_manager.cpp: MeshlinePolicyManager", "src/domain/conflict_manager.cpp: ConflictManager::add_too_close_meshline_policies"]}
{"id": "C51", "title": "A board holds exactly what its polygons are made of", "statement": "Whatever polygons are added to an empty board, every polygon keeps what it was given, its edges are its sides in order with its normals and belong to no other polygon, its bounding is the smallest, all edges are meshed, not reversed and without conflict, and there is no angle, conflict or line yet. Only a polygon without points cannot be added.", "quantifier": "every sequence of added polygons", "why_tests_cant": "unbounded number of polygons and points; ownership and freshness are global", "anchors": ["src/domain/board.cpp: Board::Builder", "src/domain/geometrics/polygon.cpp: Polygon::Polygon, detect_edges, detect_edge_normal"]}
{"id": "C52", "title": "Edges are reversed exactly inside of higher ranking materials", "statement": "An edge ends up reversed iff, just beyond it on its outer side, the material of the topmost other polygon there (else the background) ranks higher than the material of its own polygon; nothing else changes. A polygon without material makes a null pointer be read.", "quantifier": "every board built from polygons", "why_tests_cant": "depends on all polygons around every edge and on priorities", "anchors": ["src/domain/board.cpp: Board::adjust_edges_to_materials, find_ambient_material"]}
{"id": "C53", "title": "Lonely edges and angles get their own policy", "statement": "Each axis gets exactly one THIRDS policy for each meshed straight edge of the plane across it that is in no conflict of colinear edges and faces a side, in the order of the edges, then one HALFS policy for each angle of the plane, enabled as the angle says; the edge then leads to its policy, and nothing else changes.", "quantifier": "every board, every plane", "why_tests_cant": "all combinations of edges, conflicts and angles", "anchors": ["src/domain/board.cpp: Board::detect_individual_edges"]}
{"id": "C54", "title": "A whole run gives each class of colinear edges its policy, and no other", "statement": "After the steps from polygons to policies, the policies of an axis are the fixed lines, exactly one policy for each class of colinear edges one of which needs a line, fitting the sides these edges face and within the tolerance of each, and one for each angle; edges are where they were, and reversed exactly if a higher ranking material surrounds them. (A meshed edge that faces no side and is alone has no line.)", "quantifier": "every board built from polygons on which being colinear is transitive, every parameter, every number of steps the run needs", "why_tests_cant": "composition of ten steps over all boards; tests check each step on a few shapes", "anchors": ["src/app/openemsh.cpp: OpenEMSH::run_all_steps, next_step", "src/domain/board.cpp: Board::detect_colinear_edges, auto_solve_all_edge_in_polygon, auto_solve_all_colinear_edges, detect_individual_edges"]}
{"id": "C57", "title": "Angles and zones of diagonal edges", "statement": "After a run on a board as built, the angles are exactly the corners of polygons next to a diagonal side and the crossings of the sides of two polygons of a plane that are wide and high, one being diagonal; the zones of an axis cover exactly the coordinates where a diagonal edge of a plane that has the axis passes; an angle is meshed on an axis exactly if it is an end of a zone or inside of one and acute enough; and the three steps always end. If no side is slanted so little that it counts as straight, every angle is in a zone of each axis of its plane. A crossing of a diagonal side and a straight one gives no angle (refuted).", "quantifier": "for all built boards, parameters, angle functions and sorts", "why_tests_cant": "any number of polygons of any shape; the tests look at a few triangles", "anchors": ["src/domain/board.cpp:253-310", "src/domain/board.cpp:546-606", "src/domain/conflict_manager.cpp:207-249", "src/domain/conflicts/conflict_diagonal_or_circular_zone.cpp:20-81"]}
{"id": "C55", "title": "From the shapes of a board to its lines", "statement": "Once the policies of a board are known, the steps to the lines end; on each axis the lines are increasing, no farther apart than the larger dmax, between the policies; between neighbour policies gaps are bounded by the dmax of diagonals if a diagonal edge passes over their middle and by the general one else; every fixed line, and every edge that faces no side but needs a line, has one within the tolerance plus 5/2 of the proximity limit; every other edge that needs a line has an enabled policy that near and, unless the axis has only one, a line in reach of it.", "quantifier": "for all built boards, fixed lines, sorts, and parameters with dmax > 0, smoothness >= 1, limit >= 0", "why_tests_cant": "composition of all fourteen steps over all boards; the tests never run them together", "anchors": ["src/app/openemsh.cpp:169-183", "src/domain/meshline_policy_manager.cpp:91-246", "src/domain/conflict_manager.cpp:253-264", "src/domain/conflicts/conflict_diagonal_or_circular_zone.cpp:40-95"]}
{"id": "C56", "title": "From any board to its mesh lines: nothing read in vain, and an end", "statement": "If every polygon has a material and either all polygons are boxes or the ends of every edge are distinguishable, no step of the run reads an element or follows a pointer that is not there, however long it runs. If moreover the polygons are boxes, or their vertices at the same height or two tolerances apart, the run from shapes to lines ends. In particular it ends for every board of boxes, flat ones and ones thinner than the tolerance included. (False without: an edge shorter than the tolerance that crosses a diagonal makes the code read the second element of a one-element vector; a polygon with vertices at about the same height makes the run loop forever.)", "quantifier": "for all built boards of any number of polygons, fixed lines, sorts, angles, and parameters with dmax > 0, smoothness >= 1, limit >= 0", "why_tests_cant": "absence of undefined behaviour and of endless loops over all boards; tests only see the boards they run", "anchors": ["src/app/openemsh.cpp:169-183", "src/domain/board.cpp:332-445", "src/domain/geometrics/polygon.cpp:159-205", "src/domain/conflict_manager.cpp"]}
{"id": "C58", "title": "Reading a file ends with a board or an error", "statement": "Whatever the document, if every polygon and curve has a vertex the reading ends, either with an error or with a board; a document without a ContinuousStructure is an error. The board is one that the builder can build (so all that is proved of built boards holds of boards that were read), every one of its polygons has a material, and its background is that of the BackgroundMaterial or missing.", "quantifier": "every document, every combination of planes", "why_tests_cant": "all documents; the tests read a few files", "anchors": ["src/infra/parsers/parser_from_csx.cpp: ParserFromCsx::parse, parse_primitive_*"]}
{"id": "C59", "title": "Lines and parameters are read as written in the file", "statement": "The fixed lines of each axis are those of OpenEMSH/FixedMeshlines, then those of the grid when it is kept, each times its unit, then those of the primitives. A text that is not a number is an error (so is a number after a space). Parameters are those of OpenEMSH/GlobalParams or the defaults; options of the command line prevail over them and add their lines last. (False: a DeltaUnit that is not an integer is read as its integer part, 0.001 sends all lines to 0.)", "quantifier": "every document", "why_tests_cant": "all documents, all texts", "anchors": ["src/infra/parsers/parser_from_csx.cpp: ParserFromCsx::parse, parse_grid, parse_oemsh"]}
{"id": "C60", "title": "Reading back what was written", "statement": "After writing the mesh into a document with one structure and no unit on it, reading it while keeping the mesh gives the same board and, first on each axis, the lines that were written, up to half a unit of the sixth decimal and exactly if they have at most six decimals. With the parameters saved, they are read back. (False of the parameters of diagonal edges, which are not saved.)", "quantifier": "every document, every mesh", "why_tests_cant": "round trip over all documents and meshes; no test writes then reads", "anchors": ["src/infra/serializers/serializer_to_csx.cpp: SerializerToCsx::run", "src/infra/parsers/parser_from_csx.cpp: ParserFromCsx::parse"]}
{"id": "C61", "title": "Writing leaves the rest of the document alone", "statement": "Writing the mesh changes nothing of the document but the contents of its grid and OpenEMSH; what is read without the mesh is the same board. (False of a document with two structures: lines are written in the one that is not read. Saving without the parameters removes the lines fixed by the user.)", "quantifier": "every document", "why_tests_cant": "frame property over all documents", "anchors": ["src/infra/serializers/serializer_to_csx.cpp: SerializerToCsx::run"]}
{"id": "C62", "title": "Numbers of a file are read as they are spelled", "statement": "A text made of a sign, digits, a fraction and an exponent reads as the number it spells, what follows being ignored; lists of numbers with commas read as those numbers times the unit; a mesh line that does not begin with a digit or a dot, maybe after a minus, is an error; coordinates skip blanks and accept a plus; whole numbers are bounded by the largest one, negative ones read as 0. (False: a plus before the number of a mesh line, which other programs accept, is an error.)", "quantifier": "all spellings, all texts that follow, all lists", "why_tests_cant": "infinitely many texts; the tests read a few numbers", "anchors": ["src/infra/parsers/parser_from_csx.cpp:89-185,67-71,298-355"]}
{"id": "C63", "title": "From a file to the lines written in it", "statement": "A file is read with the options of the command line; if the parameters are usable and its shapes are boxes (or not too small, and points can be located in them) the whole run ends, the lines of each axis are increasing and at most the larger dmax apart; written in the file they are still in order, each within half of the last decimal, and at most that decimal farther apart. (False for all the options that are accepted: a dmax of 0 is, and then the run never ends.)", "quantifier": "all documents, options, sorts; unbounded numbers of shapes and lines", "why_tests_cant": "composition of reader, fourteen steps and writer over all documents", "anchors": ["src/infra/parsers/parser_from_csx.cpp: ParserFromCsx::run", "src/app/openemsh.cpp:169-183", "src/infra/serializers/serializer_to_csx.cpp: SerializerToCsx::run", "src/cli.cpp:155-201"]}
{"id": "C64", "title": "On a board of boxes no side that shows is dismissed", "statement": "If the polygons are boxes and the coordinates of vertices of a plane are equal or at least 0.0002 apart, then each point of a side that ends up not meshed is, up to the tolerance, in a box of the same plane, at its height and of the same priority or above; so a side one point of which is seen is meshed, there is an enabled policy at its coordinate, and in the end a policy nearby and a line in reach. (False for smaller boxes: a box of size 0.00002, 0.00001 beside another one, loses its four sides for being inside of it.)", "quantifier": "all boards of boxes with such coordinates, all sides, all points of a side; unbounded numbers of boxes", "why_tests_cant": "needs all arrangements of boxes, with common sides, corners and overlaps; the tests check a dozen arrangements", "anchors": ["src/domain/board.cpp:315-450: detect_edges_in_polygons", "src/domain/conflicts/conflict_edge_in_polygon.cpp:80-108", "src/domain/geometrics/segment.cpp:35-129", "src/domain/geometrics/polygon.cpp:159-205"]}
{"id": "C65", "title": "The lines of an axis in the arithmetic of doubles", "statement": "With each operation rounded to the nearest double: the lines on one side of an interval are doubles in order, they just cover the side, their spacing is at most dmax, at least the size asked for and grows no faster than the smoothness, up to the rounding of a few operations. Whatever the parameters, the lines of a meshed axis are doubles if the coordinates of its policies are. If coordinates and sizes are up to about a million, sizes are above 64 roundings of the largest coordinate and policies are far enough apart, the meshing of an axis ends; its lines are in order, none farther apart than the largest dmax plus nine roundings, exactly on each ONELINE policy, within two roundings of the middle of neighbour policies, within three roundings of the halves and thirds around the others, and none beyond the policies. (False: that lines are distinct, as one accumulated just below the middle of two policies is kept; that meshing ends for coordinates of a thousand millions, or for cells that are lost in the rounding.)", "quantifier": "all axes, zones and parameters within such bounds; unbounded numbers of policies and lines", "why_tests_cant": "errors accumulate over runs of any length; a test checks a run whose roundings happen to be harmless", "anchors": ["src/domain/mesh/interval.cpp: Interval", "src/domain/mesh/interval.cpp:137-186,225-243,300-434", "src/domain/meshline_policy_manager.cpp:130-161,191-242", "src/domain/geometrics/coord.cpp:78-85"]}
{"id": "C66", "title": "A point is located right in a polygon of any shape", "statement": "If the coordinates of the points of a polygon and of a point are whole numbers of 1/N, N at most 7071, the location of the point ends with ON exactly if it is on a side, else with IN exactly if the half line from it goes through an odd number of sides, and with OUT otherwise, be the polygon concave, with points in the middle of its sides, or crossing itself. The rule does not depend on the direction of the half line, is the same for points joined without meeting the border, changes through a side, and encloses nothing beyond the points; for a box it means strictly between its sides. (False off a grid: if a point in the middle of a side is at less than the tolerance from the height of the point to be located, one inside is OUT and one outside is IN.)", "quantifier": "all polygons with any number of points on such a grid, all points of the grid", "why_tests_cant": "needs all shapes and all positions, rays that meet vertices or go along sides; the tests check a few points of a few polygons", "anchors": ["src/domain/geometrics/polygon.cpp:159-205", "src/domain/geometrics/segment.cpp:35-72"]}
{"id": "C67", "title": "On a board of rectilinear polygons no side that shows is dismissed", "statement": "If the sides of the polygons go along the axes and the coordinates of their vertices are whole numbers of 1/N, N at most 3535, be they concave, with vertices in the middle of sides, with sides that are points, or crossing themselves, then each point of a side that ends up not meshed is, up to the tolerance, in a polygon (border included, even-odd rule) of the same plane, at its height and of the same priority or above. So a side one point of which is seen is meshed; if its polygon has a signed area there is an enabled policy at its coordinate, and in the end, the polygons being made of something, there is a mesh with a policy nearby and a line in reach. (False without the area: two squares that meet in a corner, drawn as one chain in opposite ways, have no policy at their outer sides. False off a grid: 1e-9 above a vertex in the middle of a side of another polygon, a side of a box beside it is dismissed.)", "quantifier": "all boards of such polygons of any number of vertices, all sides, all points of a side", "why_tests_cant": "needs all shapes and arrangements, prongs and notches, sides through several parts of a polygon; the tests check a dozen arrangements, mostly of boxes", "anchors": ["src/domain/board.cpp:315-450: detect_edges_in_polygons", "src/domain/conflicts/conflict_edge_in_polygon.cpp:80-108", "src/domain/geometrics/segment.cpp:35-129", "src/domain/geometrics/polygon.cpp:60-205"]}
{"id": "C68", "title": "The window shows the current point of the history", "statement": "Whatever the user does (open files that parse or not, edit, undo, redo, go to the previous or next step, save, look around, in any order and number), while a document is open both views show every object that exists at the current timepoint, in the state it has there, although scenes are drawn once per timepoint and kept; no action fails; the navigation buttons are enabled exactly when they do something; undoing then redoing shows exactly what was shown. (False without a document: fitting the view, which is never disabled, aborts. False of going back a step while browsing the history: undoing it shows something else.)", "quantifier": "all sessions of any length, all files and answers, all boards, editions and parsers that write at timepoints just created", "why_tests_cant": "needs all interleavings of edits, navigation, reopening and garbage collection with caches keyed by raw timepoint addresses; there are no tests of the interface", "anchors": ["src/ui/qt/main_window.cpp:128-166", "src/ui/qt/main_window.cpp:548-712", "src/ui/qt/structure_view/structure_view.cpp:44-75", "src/ui/qt/structure_view/structure_view.cpp:185-221", "src/ui/qt/processing_view/processing_view.cpp:104-142"]}
{"id": "C69", "title": "What is marked as saved is saved, nothing else is written, nothing is overwritten or lost unasked", "statement": "In a session where the disk works, a document that is open and not marked as unsaved is in a file: its own structure with its current lines and parameters. While a document is open only it is written. A file that exists is replaced only if the user asked for it, by the command line or by the answer to the question. Closing: the document is in a file, or the user gave it up, declined to save after all, or its structure could not be read again. (False: if writing fails the document is marked as saved; answering to save then declining to overwrite closes; opening another file gives up unsaved work unasked; after a file that fails to parse, saving when closing writes the structure of that file with the lines of the former document, or follows a freed pointer.)", "quantifier": "all sessions of any length, all files and answers, all boards, editions and parsers that write at timepoints just created", "why_tests_cant": "needs all orders of saving, saving under another name, exporting to a temporary file, editing, undoing and closing, with every answer and failure; there are no tests of the interface", "anchors": ["src/ui/qt/main_window.cpp:366-525", "src/ui/qt/main_window.cpp:742-758", "src/infra/serializers/serializer_to_csx.cpp:76-131", "src/app/openemsh.cpp:103-144"]}
{"id": "C70", "title": "A dialog gives the lines that its values ask for", "statement": "Whatever dialogs were used before, the dialog of the global parameters gives the board that opening the file with these parameters gives (all other editions are lost). On a board with diagonal zones and no fixed lines, any sequence of dialogs of intervals gives exactly the mesh of the intervals as edited. (False of the other dialogs on a board without diagonal edges: the lines there were stay, whatever is asked for; confirming the dialog of an interval without a change gives each line twice. Of the fields of the dialog of a diagonal zone, two have no effect on any board.)", "quantifier": "all boards as built, all sequences of dialogs of any length, all parameters and sorts", "why_tests_cant": "needs all orders of dialogs with steps that leave no mark in the history; there are no tests of the dialogs", "anchors": ["src/ui/qt/main_window.cpp:636-654", "src/app/openemsh.cpp:161-241", "src/ui/qt/edit/edit_model_global.cpp:39-64", "src/ui/qt/edit/edit_model_interval.cpp:42-58", "src/ui/qt/edit/edit_model_edge.cpp:30-43", "src/utils/state_management.cpp:213-237"]}
{"id": "C71", "title": "A step back and the next step cancel", "statement": "On a board with diagonal zones and no fixed lines, going back one or two steps and forth again gives the same board. (False of three steps: if no policies are too close, each line is there twice. False on a board without diagonal zones: after one step back, the next step does nothing, however often it is asked for, and there are no lines any more. False of going back to the beginning on any board where no edge is reversed: the next step does nothing for ever, and from one step later it adds each angle once more.)", "quantifier": "all boards, parameters, sorts; any number of next steps", "why_tests_cant": "needs all boards and the annotations left by steps that make no timepoint; there are no tests of the steps on a board", "anchors": ["src/ui/qt/main_window.cpp:548-562", "src/app/openemsh.cpp:161-166,189-241", "src/utils/state_management.cpp:213-237"]}
{"id": "C72", "title": "The graph view shows each object once and wires it to what it was made of", "statement": "Whatever the user did, the graph view of the board can be made; it has exactly one node for each object of the board and no others but for planes and axes; each node is in the frame of its plane, polygon or axis; there is a wire from a node to another exactly if the object of the second was made out of that of the first; no wire is there twice, none is missing for want of a node.", "quantifier": "all boards reached by any sequence of steps, steps back and dialogs; unbounded numbers of objects", "why_tests_cant": "needs all boards and all sessions, with pointers left over from before going back; there are no tests of the views", "anchors": ["src/ui/qt/processing_view/processing_view.cpp:132-206", "src/ui/qt/processing_view/processing_scene.cpp:143-175,300-325"]}
{"id": "C73", "title": "The chain of a node is all it comes from and all that comes from it", "statement": "Walking along the wires from a node ends, and finds exactly the nodes whose objects its object descends from or that descend from it, each once.", "quantifier": "all boards reached, all nodes, chains of any length", "why_tests_cant": "transitive closure over all graphs, with nodes reached in several ways", "anchors": ["src/ui/qt/utils/nodegraph/node.cpp:165-220", "src/ui/qt/utils/nodegraph/port.cpp:134-155"]}
{"id": "C74", "title": "The columns of an axis go from left to right", "statement": "The column of a policy or of a pair of too close policies can be computed; everything is right of what it was made of, so no wire between them goes backwards, and as far to the left as that allows.", "quantifier": "all boards reached, all policies and too close pairs, chains of merges of any length", "why_tests_cant": "recursion over merges of merges of any depth", "anchors": ["src/ui/qt/processing_view/processing_axis.cpp:23-38", "src/ui/qt/processing_view/processing_meshline_policy.cpp:151-176", "src/ui/qt/processing_view/processing_conflict_too_close_meshline_policies.cpp:78-103"]}
{"id": "C75", "title": "The graph view highlights what is related to the selection, and shows it", "statement": "After any sequence of clicks, selections in other views, Escape and changes of mode, the nodes highlighted are exactly those related to a selected node by wires; in the mode SELECTED_CHAIN those to be seen are exactly the selected and highlighted ones and the frames around them, in the mode EVERYTHING all. A click selects or unselects the node clicked and no other, Escape clears the selection, a selection made elsewhere is taken over, the mode EVERYTHING keeps it. (False: that changing to the mode SELECTED_CHAIN keeps it; of two unrelated nodes only one stays selected and visible.)", "quantifier": "all scenes, all sequences of gestures of any length", "why_tests_cant": "needs all orders of signals between selection, hiding and highlighting, counted per node; there are no tests of the views", "anchors": ["src/ui/qt/utils/nodegraph/highlightable.cpp:20-34", "src/ui/qt/utils/nodegraph/node.cpp:55-94", "src/ui/qt/processing_view/processing_scene.cpp:326-385,421-470"]}
{"id": "C76", "title": "The lines of an axis do not depend on the order of its policies", "statement": "Two axes that have the same enabled, consistent policies, in any order and among any disabled ones, several at the same place or not, get the same lines from the steps on too close policies, intervals, zones and lines: if these steps end for one, they end for the other, and the lines are the same numbers; with usable parameters they end. (False: that the lines do not depend on how the sort treats intervals of the same size; that the order of fixed lines does not matter.)", "quantifier": "all axes, all orders of their policies, all zones, all sorts that only compare keys, all non-negative proximity limits", "why_tests_cant": "needs all permutations of any number of policies, with any number of them at the same place, which are merged in an order that depends on the permutation", "anchors": ["src/domain/meshline_policy_manager.cpp:74-242", "src/domain/conflict_manager.cpp:170-203", "src/domain/conflicts/conflict_too_close_meshline_policies.cpp:39-124", "src/domain/board.cpp:81-99"]}
{"id": "C77", "title": "Messages reach their readers, answers are those of the interactive one", "statement": "However the logger is set up, the sink of a key is the first one registered under it, and the last one chosen is the only interactive one. A message for a known sink goes to that one only, any other message to each sink once, and the answer is that of the interactive sink. On the command line nothing is asked and nothing is dropped but informations when not verbose. In the window a message with actions is a box with exactly their buttons, and the answer is one of them. (An interactive command line would ask until a line is a known letter: it never ends at the end of its input, and takes answers that were not offered; the program never makes it interactive.)", "quantifier": "all sequences of calls that set the logger up, all messages, all inputs, all choices of a button", "why_tests_cant": "needs all sequences of registrations and all inputs, and that a loop never ends", "anchors": ["src/utils/logger.cpp:19-64", "src/ui/cli/logger.cpp:49-112", "src/ui/qt/logger.cpp:19-89", "src/main.cpp:33", "src/ui/qt/main_window.cpp:108"]}
{"id": "C78", "title": "The exit status and the last message tell what happened", "statement": "A run on the command line ends with one message. It fails if and only if this message is an error, and then no file was written. If the disk takes the file, a success in a format that makes one means that the output was written. (False: that a success means that a file was written: failures to write are ignored, and the pretty-print format says that it saved a file. Without an output name and --force a run on an existing input always fails.)", "quantifier": "all arguments, all errors of parsing and of reading again, all disks", "why_tests_cant": "needs all combinations of arguments and states of the disk", "anchors": ["src/main.cpp:35-88", "src/app/openemsh.cpp:130-157", "src/infra/serializers/serializer_to_csx.cpp:76-131", "src/ui/cli/cli.cpp:215-218"]}
{"id": "C79", "title": "A design that is moved gets the same mesh, moved", "statement": "If all shapes and fixed lines are moved by a displacement along each axis, with the same parameters, then the steps end in the same way (or for neither design), with the same policies and lines, moved by that displacement. (False: the same for a mirror image, because of two pairs that are equally close; and for a design in another unit, because of the absolute tolerance.)", "quantifier": "all designs (any shapes, priorities, materials, diagonals), all displacements, all parameters, all sorts by comparison", "why_tests_cant": "a relation between two runs on designs of any size", "anchors": ["src/app/openemsh.cpp:165-190", "src/domain/board.cpp:212-606", "src/domain/conflict_manager.cpp:35-290", "src/domain/meshline_policy_manager.cpp:40-276", "src/domain/geometrics/coord.cpp:28-30"]}
{"id": "C80", "title": "The PlantUML state diagram shows the board as it is", "statement": "After a run of the steps the diagram can be written. Its braces match; every polygon, edge, conflict, policy, interval and line has exactly one state, in the state of its plane, polygon or axis, and nothing else has. Both ends of each arrow are declared, arrows start and end at pins of the right direction, and there is an arrow exactly between the objects that the specification relates; so one sees what each shown object was made out of, if that is shown as well. Policies are listed by coordinate. The fields, titles and colours are those of the objects. The text has one line per statement and different states have different names. (False: that the text is well formed for all polygon names: quotation marks and line ends in names are written as they are.)", "quantifier": "all designs, parameters and sorts by comparison, all pointers that lead to the board, all polygon names and numbers of objects", "why_tests_cant": "needs all boards; a dangling pointer or a missing brace shows for some shapes only", "anchors": ["src/infra/serializers/serializer_to_plantuml.cpp:43-247", "src/infra/utils/to_string.cpp:27-99", "src/app/openemsh.cpp:145-149", "src/utils/entity.cpp:12-23"]}
{"id": "C81", "title": "The structure view shows what is on the board, where it is", "statement": "Whatever the user does, the scene of each plane can be made: no pointer that drawing follows is missing. It has exactly one item for each polygon of the plane, side of such a polygon, angle of the plane, and mesh line, policy, interval, colinear conflict, zone and solved too close policies of the two axes of the plane, and no other. Within the scene and two more of its widths or heights around it, each item covers exactly the points where its object is (a colinear conflict: in the plane of its edges). The lines beside a policy are where meshing puts the first lines of the intervals on both sides of it; too close policies come with both lines that they replaced. Items tell enabled policies and meshed angles. The buttons show horizontal lines, upright ones, all or none, in step with the axes of the graph view, and hide nothing else. (False: that colinear conflicts are in the right place in the other plane of their axis; that mesh lines can be seen in a plane without polygons.)", "quantifier": "all boards reached by running steps, going back and forth and using dialogs, all planes, all scene rectangles, all points, all settings of the buttons", "why_tests_cant": "needs all boards and all points; what is drawn is only looked at by people", "anchors": ["src/ui/qt/structure_view/structure_view.cpp:224-262", "src/ui/qt/structure_view/structure_scene.cpp:117-264", "src/ui/qt/structure_view/structure_scene.cpp:321-343", "src/ui/qt/structure_view/structure_meshline_policy.cpp:20-83", "src/ui/qt/structure_view/structure_conflict_colinear_edges.cpp:21-37", "src/ui/qt/structure_view/structure_conflict_too_close_meshline_policies.cpp:21-47", "src/ui/qt/main_window.cpp:272-297"]}
{"id": "C82", "title": "The two views stay in step as the user moves through the history of a document", "statement": "Whatever the user does, both views show the timepoint visited last, and no scene is asked for that is not there. The plane of the structure view and the wires of all graphs, and the buttons pressed for them, are those chosen last. What is shown at a timepoint is only changed by a click there; a new timepoint takes the lines and the mode of the one shown before. The buttons pressed tell what is seen, as long as no second file is opened. A graph that follows the structure view has the frames of the plane and of the lines that are visible, until the user comes back to a timepoint shown before. The keys go around the three planes. (False: that a graph follows the structure view after an undo, or after an undo and an edition; that buttons tell what is seen after opening a second file.)", "quantifier": "all sequences of clicks, keys, undos, redos, steps, editions and files opened, whatever timepoints they lead to", "why_tests_cant": "needs all interleavings of settings with moves in the history; what the views show is only looked at by people", "anchors": ["src/ui/qt/main_window.cpp:211-226", "src/ui/qt/main_window.cpp:272-325", "src/ui/qt/main_window.cpp:587-633", "src/ui/qt/main_window.cpp:696-732", "src/ui/qt/processing_view/processing_view.cpp:41-142", "src/ui/qt/structure_view/structure_view.cpp:63-75", "src/ui/qt/structure_view/structure_view.cpp:151-221", "src/ui/qt/processing_view/processing_scene.cpp:357-418"]}
{"id": "C83", "title": "A selection goes from one view to all the others, and comes to rest", "statement": "The graph and the scenes of the three planes tell each other what is selected. Whatever the user selects, unselects, shows or hides, the calls back and forth end, eight deep at most, and then no scene goes on ignoring the others. What is selected in a scene has an item there that can be seen, is selected in the graph too, and only once. A new selection made in a plane or in the graph is exactly what is selected there afterwards, the graph selects exactly what was selected in the plane, and each plane exactly what it can show of the selection of the graph; so all views agree as long as no lines are shown or hidden. Showing or hiding lines that are not selected changes no selection. Whatever has an item in a plane has a node. (False: that the views agree after lines are shown; that hiding a selected line keeps the selection of objects that can still be seen.)", "quantifier": "all sequences of selections in the views and of lines shown and hidden, all sets of items, with and without the graph showing the selected chain", "why_tests_cant": "needs all interleavings of signals between four scenes with five locks; a loop would only show for some selections", "anchors": ["src/ui/qt/processing_view/processing_scene.cpp:421-470", "src/ui/qt/structure_view/structure_scene.cpp:321-419", "src/ui/qt/main_window.cpp:613-621", "src/ui/qt/main_window.cpp:733-736", "src/ui/qt/structure_view/structure_view.cpp:156-159"]}
{"id": "C84", "title": "The dialog of a mesh line policy never asks for an impossible policy", "statement": "Every policy that the dialog can be opened for is coherent: it looks to a side if and only if it is THIRDS, whatever was done before. Whatever happens in the dialog, the policy is given nothing but the coherent pair of new values shown. If the user acts on a table that is painted, the new values are always coherent, so that OK is refused only if d is not a number; the policy chosen is the one there is then, and the normal is kept if it goes with it; a normal that does not go with the policy is not taken; all coherent pairs can be had; the old values stay as they were. What is not touched is given back. (False: the same whatever cells are painted last: after the old normal is painted alone, choosing THIRDS adapts the old normal instead of the new one, and OK does nothing.)", "quantifier": "all sequences of paintings, choices, checks and texts, all initial policies, all boards reached by steps and dialogs", "why_tests_cant": "needs all orders of painting and editing; painting is not under the control of tests", "anchors": ["src/ui/qt/edit/edit_delegate.cpp:92-220", "src/ui/qt/edit/edit_model_meshline_policy.cpp:27-87", "src/ui/qt/edit/edit_model.hpp:32-105", "src/ui/qt/edit/edit_dialog.cpp:36-41"]}
{"id": "C85", "title": "A circle becomes a convex polygon around the same centre", "statement": "The points made for a circle are four times the slices asked for by quarter (four if none), all different and all on the circle, and the four points of the circle on the axes are among them, so that the bounding box is that of the circle. The polygon turns left around the centre and is convex: all points but the ends of a side are left of it. No side is along an axis, by a margin that depends on the radius and the slices only; the sides stay between r cos(d/2) and r from the centre. The polygon is seen as turning left from a radius of 1e-4 on, and never as turning right.", "quantifier": "all centres, radii (negative ones too) and numbers of slices", "why_tests_cant": "needs all radii, centres and numbers of slices, over the reals", "anchors": ["src/domain/geometrics/polygon.cpp:213-231", "src/domain/geometrics/polygon.cpp:66-113", "src/domain/geometrics/polygon.hpp:94", "src/domain/geometrics/segment.cpp:75-85", "src/infra/parsers/parser_from_csx.cpp:440-511"]}
{"id": "C86", "title": "The nodes of the graph view are never put one on the other, nor out of their container", "statement": "Every visible item of a container is put at one place, in the container with the margins around it; items of a column are one under the other in their order, columns one right of the other in theirs, with the margins between; the container is no larger than that takes. Packed up, all gaps but the lowest are the margin; packed down, all but the highest; unpacked, gaps are equal, with the margin at both ends or the same gap there. Planes and axes of a scene are stacked without overlap, axes right of all planes. A node no larger than its container cannot be moved out of it, and goes where it is sent if it fits; so items stay where the container puts them.", "quantifier": "all lists of items, columns, sizes and margins that are not negative, all spacements, all moves", "why_tests_cant": "needs all numbers of items and columns and all sizes; a column of one item divides by zero in one mode", "anchors": ["src/ui/qt/utils/nodegraph/container.cpp:62-163", "src/ui/qt/utils/nodegraph/container.hpp:22", "src/ui/qt/processing_view/processing_scene.cpp:90-113", "src/ui/qt/utils/nodegraph/node.cpp:57-67"]}
{"id": "C87", "title": "Progress bars never go back nor past their end, and end full", "statement": "For every step of a run and the reading of a file, the counts shown in the terminal are exactly those given: one by one, row by row, or from two on; they never go back, never pass the maximum, end at it as soon as there is something to do, and tell at the end how much was found. The solving of close policies takes no more rounds than there are policies. Two steps differ: the diagonal angles reach their maximum only if all polygons are triangles, and the fixed policies always show one more than there are. In the window, counts that tell what was found are one further, so the last one is dropped.", "quantifier": "all numbers of polygons, edges, angles, zones, policies and intervals, all outcomes of the comparisons", "why_tests_cant": "needs all numbers of things at once; a count off by one is no failure of any test", "anchors": ["src/utils/progress.cpp:16-43", "src/ui/cli/progress.cpp:19-66", "src/ui/qt/progress.cpp:18-50", "src/domain/board.cpp:212-310", "src/domain/board.cpp:315-620", "src/domain/meshline_policy_manager.cpp:106-242", "src/domain/conflict_manager.cpp:239-290", "src/infra/parsers/parser_from_csx.cpp:698-725"]}
{"id": "C88", "title": "The report of a board tells all of its conflicts", "statement": "After the steps the report (the pretty-print format) can be written without reading anything that is not there. Read back, it has three headings; under the first is every edge in polygons, plane by plane, with the edge, every overlap with the polygon and all its edges, the overlapping edge if there is one and the range, and whether the edge is meshed; under the second every conflict of colinear edges, axis by axis, with all its edges and the policy that solves it. Under the third there is nothing, however many policies are too close. An edge can be told from its line if its coordinates have six decimals, not otherwise. Solutions, rotations and whether an edge is meshed are written with the words a reader understands.", "quantifier": "all boards built, all settings, all sorting algorithms; all edges", "why_tests_cant": "a report is for the eye; that nothing is missing or mixed up in it needs all boards", "anchors": ["src/infra/serializers/serializer_to_prettyprint.cpp:27-159", "src/infra/serializers/serializer_to_prettyprint.hpp:14-34", "src/infra/utils/to_string.cpp:15-99", "src/domain/utils/entity_visitor.hpp:25-40"]}
{"id": "C89", "title": "Too close policies in doubles", "statement": "In doubles, rounding to nearest after each operation: without rounding the merging of too close policies is the exact one. When it stops, enabled policies are really farther apart than the limit, not only up to rounding; it stops in fewer turns than there are enabled policies; coordinates stay doubles; a merged policy is between the two it replaces, on the only ONELINE one or in the middle up to two roundings; the rest is kept as in C28, and each policy has a replacement, ONELINE if it was, within 5/2 of the limit up to fourteen roundings for each conflict. If the limit leaves room for the lines asked for, the axis is then meshed as in C65, however close its policies were. Policies slightly farther than the limit may be merged, and the pair merged may not be the closest one, so that the lines may be elsewhere by half of the limit.", "quantifier": "all axes whose policies are on doubles, all settings, all sorting algorithms", "why_tests_cant": "tests compare coordinates of a few policies; that rounding never leaves two policies within the limit needs all doubles", "anchors": ["src/domain/meshline_policy_manager.cpp:50-127", "src/domain/conflicts/conflict_too_close_meshline_policies.cpp:33-82", "src/domain/geometrics/coord.cpp:38-85", "src/domain/mesh/meshline_policy.cpp:18-37"]}
{"id": "C90", "title": "Loops that are not sequenced", "statement": "Three loops run with std::execution::unseq: the calls for distinct elements are not sequenced with one another. For every world that permitted operations reach, the garbage collector gives the same world, and never reads what is not there, whatever the order of the parts of its calls (the jump, the erasing of states, the erasing of ordered timepoints of each object), as long as each call keeps the order of its own parts, and whenever the objects that die with erased states are destroyed in between. A jump gives the same world in whatever order objects are asked for it, and the common ancestor does not depend on the order of comparisons. So every operation does the same in any order, and no order leads to a world that the sequential loops do not lead to. The order within a call does matter.", "quantifier": "all reachable worlds, all interleavings of the calls, all moments of destruction", "why_tests_cant": "compilers seldom vectorise such loops, so that tests only ever see the sequential order", "anchors": ["src/utils/state_management.cpp:40-80", "src/utils/state_management.cpp:213-224", "src/utils/state_management.hpp:212-257", "src/utils/tree_node.cpp:105-112"]}
{"id": "C91", "title": "Automatic collection", "statement": "For as long as nobody switches it off, the collection is automatic. Then making a timepoint while browsing leaves, besides the new one, exactly the timepoints needed for the current one, the pinned ones and those of the user history that are not undone; unpinning leaves exactly those needed for the current one, the other pinned ones and the user history. No other operation removes a timepoint unless it is a collection or the history starts anew, whatever the setting, and none but make_next_timepoint adds one. A pinned timepoint stays until it is unpinned or the history starts anew. If the client remembers or pins the current timepoint, or one under it, before leaving it, only needed timepoints are there at any time; running steps, going back before a step, undo and redo lead to timepoints that may be left so.", "quantifier": "all worlds reached by permitted operations, all operations", "why_tests_cant": "needs all histories; a missing collection is only seen as memory in use", "anchors": ["src/utils/state_management.cpp:22-27", "src/utils/state_management.cpp:40-92", "src/utils/state_management.cpp:110-114", "src/utils/state_management.cpp:127-158", "src/utils/state_management.cpp:190-210", "src/app/openemsh.cpp:160-186", "src/app/openemsh.cpp:228-241"]}
