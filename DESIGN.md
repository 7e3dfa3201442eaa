# Formal model of foronoi in Rocq (Coq 8.16.1)

## 1. Approach

* **Arithmetic is a parameter.**  `Arith` (Arith.v) is a record with the operations the code uses: a carrier
  `D` for `decimal.Decimal`, a carrier `F` for binary floats, their operations, conversions and comparisons.
  Operations that can raise in Python (division, `sqrt`) return an option.  The model of the code is written once over
  an arbitrary `Arith`.  Theorems are then proved
  * for **every** `Arith` (structural properties: independent of rounding), some under the stated laws
    (`Lawful`: the comparisons are a total order);
  * for `RArith` (exact real arithmetic) for the geometric properties;
  * witnesses of violated properties are computed with `DecArith`, an executable model of
    `decimal` with the default context (28 digits, ROUND_HALF_EVEN).
* **Objects are heap cells.**  Node, Arc, Breakpoint, HalfEdge, Vertex, Point and CircleEvent objects live in
  heaps (lists indexed by identifiers); attributes are fields that are updated in place, as in the Python code, so
  aliasing and stale pointers are visible.  Code is written in a state-and-exception monad; each Python
  exception is a value.  Loops take explicit fuel, running out is a distinguished exception.
* **Specifications** are written on plain mathematical objects (lists of sites from left to right, inductive trees,
  real geometry), related to the heap by a representation predicate.

## 2. Plan per property

| property | model | proof |
|---|---|---|
| C01 | `ev_lt` on queue items | total-order reasoning for every lawful arithmetic |
| C02 | CPython `heapq` on lists | heap invariant, permutation, induction on the history |
| C03 | sweep loop | invariant: sites popped in order; names |
| C04 | `create_circle` at `RArith` | field arithmetic |
| C05, C41 | `get_intersection` at `RArith` | real algebra |
| C06 | `check_clockwise` at `RArith` | trigonometry |
| C07-C10 | node/tree operations on the heap | refinement to inductive trees |
| C11, C12, C13, C14-C17, C19, C39 | `handle_site_event`, `handle_circle_event`, loop | one structural invariant, preserved by each event, for every lawful arithmetic |
| C18 | same at `RArith` | structural invariant + C04 |
| C20, C42, C21 | same at `RArith` | breakpoint-order invariant, then lower-envelope invariant |
| C22 | `inside` | case analysis / crossing parity |
| C23, C37 | `line_ray_intersection_point`, `_get_intersection_point` | real algebra; C37 refuted by an index mix-up |
| C24 | `finish_edges` | refuted by a witness (wide box) |
| C25, C26, C27 | `finish_edges`, `finish_polygon` | structural |
| C28 | `clean_up_zero_length_edges` | partly proved, partly refuted by a witness |
| C29, C30 | `_shoelace`, `borders` | algebra, induction on chains |
| C31 | `_order_points` | uniqueness of sorted lists |
| C32, C33 | `Subject`, notification log | invariant over histories |
| C34, C35 | `BoundingCircle` | algebra; C35 refuted for all inputs |
| C36 | tree heights | refuted by a family of inputs |
| C38 | `create_diagram` | outcome computed in the model |
| C40 | `Tree.insert`, `Tree.delete` | induction; delete refuted (raises on two-child nodes) |
| C43-C45 | `create_diagram`, `Reuse` | structural invariants over the whole run |
| C46, C47 | sweep at `RArith` | invariant `drawn_ok`: above the beach line the half-edges drawn so far are the Voronoi edges; at the end the line can be lowered without limit |
| C48 | same | lower-envelope invariant `BO` read off for one arc |
| C49 | `get_plot` at `RArith` | real algebra |
| C50 | `create_diagram` at `RArith` | C46/C47 + exact description of each cut (`cut`, FinishEdges.v) + geometry of a line and a convex polygon (ClipGeom.v); the open ends on the finishing line come from the beach-line invariant (ClipBeach.v) |
| C51 | `plot_arcs` (Visual.v) at `RArith` | the minimum of the parabolas of all arcs ever on the beach line is the lower envelope (ArcSet.v, C48) |
| C52 | `plot_edges` at `RArith` | the invariant behind C46 at the given line; every origin is a vertex or a breakpoint on the beach line |
| C53 | all plot functions | each part of the program only reads |
| C54 | `plot_all`, `plot_sweep_line`, `plot_polygon` | equalities of programs; partly refuted |
| C55 | `sweep`, `create_diagram` at `RArith` | a further invariant of the sweep (VoronoiUnique.v): half-edges with the same ordered pair of sites do not share a drawn point with only these two nearest; kept edges are cut from swept ones (`kept_on`, ClipFinal.v) |
| C56 | `create_diagram` at `RArith` (flag off) | corners and clip points in order of angle around the centre are in order along the sides (CellGeom.v); the site of a border edge is carried from the chord before it, and stays nearest until the next chord (CellBorder.v) |
| C57 | `create_diagram`, `borders` at `RArith` (flag off) | next stays in the cell (`live_site`); the closed walk of half-edges winds around the site, so the rays from the site leave through it (`walk_covers`); a half-edge's points are nearest to the site and inside; every site's walk has a half-edge of positive length: a dropped edge is skipped only by links (`trail_finish`), and around a cell the neighbours turn to the right (`next_turn`), so a closed walk cannot stay at one point (`loop_turn`) |
| C58 | `create_diagram`, `area` at `RArith` (flag off) | every half-edge of positive length is in the walk around its site (`in_list`: its midpoint is in the cell, so it is on a half-edge of the walk, and that half-edge is the same one); the two halves of an edge cancel, and the border edges add up to the sides of the polygon (`outline_sum`) |
| C59 | the `plot_*` functions of `Visual.v` on the result of `create_diagram` at `RArith` (flag off) | the edges of the finished diagram have both ends at vertices (`final_joined`), so what is drawn is a list computed from them; the Voronoi facts are those behind C50, C55-C57; for `plot_all`, the last event and the arcs of the sweep still refer to existing sites (`event_reach`, `arc_site_reach`) |
| C60 | `create_diagram` with both values of the flag, at `RArith` | an edge whose two ends are the same inner point joins two sweep vertices there; both triples turn clockwise, so their third sites differ. Conversely the three edges at a vertex with a fourth nearest site cannot all grow, because a point of a circle in an inscribed triangle is a corner of it. `clean_up_noop` (CleanUp.v) does the rest |
| C61 | `Watch.v` (`voronoi_update`, `notify_all`, presets) over `plot_all`; the states at the notifications are those of `notified` (SpecWatch.v) and the result | every such state is `drawable` (WatchDraw.v): edges have a start or a breakpoint above the line, the event and the arcs have their sites; the clean-up and the border keep this (`sound`, `keeps`). Induction over the notifications and the observers |
| C62 | `Watch.v` (`visualize`, `graph`, `tree_update`) | the tree of nodes represents a binary tree without repetition (invariant of the sweep); its lines, levels, preorder numbers and edges by induction on that tree; names by the invariant of C03 |
| C63 | `use_settings` in `Watch.v`: `settings.update` changes the class attribute | refuted: `settings = Presets.final; settings.update(...)` writes to the shared dict, so an observer that hides the sites hides them for all later ones. The isolated cases are proved |
| C64 | `plot_event`, `plot_circle`, `plot_arcs`, `or_list`, `canvas_size` in `Visual.v`; specification in `SpecVisual.v` (`follows`) | the event shown is the last one handled (induction on the run); its circle is that of the vertex the event made, so C21 makes it empty; the arcs of the beach line are those of the set of arcs (C51); a given list is drawn element by element |
| C65 | `edge_target` in `Navigate.v`, links of `Finish.v`; specification: `side_of` (SpecVisual.v), `target_is`, `turns_to` (PropNavigate.v) | the half-edges that border a cell are closed under next (C56-C58); an edge of the walk around the cell precedes each; clipping moves an origin only to a new vertex on the outline, so at an inner vertex the three edges of the sweep remain, and the site tells which of them twin.next reaches |
| C66 | `voronoi_update`, `presets0`, `truth`, `flags_of`, `debug_update` in `Watch.v`, `plot_all`; specification: `on`, `usual`, `keyword`, `detail`, `drawn_by` (SpecFigure.v) | each method makes only calls of its own kind (FigureFacts.v), so the calls of a kind are those of the method whose keyword is on; with C51, C52, C59, C64 this says what is shown; triangles are never shown (C54) |
| C67 | `create_diagram`, `borders`, `area`, `plot_edges`, `plot_vertices` on two inputs; specification: `node`, `cell_side`, `scales`, `mirrors` (SpecMove.v) | no node lies strictly inside a half-edge, and every point with a second nearest site or on the outline lies on a half-edge of its cell, so sides and half-edges agree (CellSides.v, SideFacts.v); a map scaling all distances is affine and invertible, a side of a convex polygon is determined by the set of corners, so `cell_side` is carried along (MoveGeom.v). That the image input is again regular is a hypothesis of C67_similar (the finishing line depends on the y axis); for another order of the sites it is proved |
| C68 | `borders`, `cell_vertices`, `area` (Finish.v) on any state of `runs`; specification: `next`, `borders_site`, `starts_at` (SpecFinish.v) | next can be undone (C15), so a walk along it that comes back to one of its half-edges comes back to the first, and it has at most as many steps as there are half-edges; every vertex of the sweep has coordinates (QueryFacts.v). `C68_incomplete_refuted`: the documented None is not returned |
| C69 | the whole sweep and `create_diagram`; specification: `runs`, `swept`, `beach`, `arcs_on`, `handled_sites` | every vertex starts three half-edges and every breakpoint of the beach line one, all different, and there are twice as many half-edges as edges; with C17 this bounds arcs and vertices; a handled event adds at most two events and removes one; every vertex of the border that is not a corner is the origin of a half-edge of the sweep (QueryFacts.v) |
| C70 | `BoundingCircle.inside`, `trim_edge`, the loop of `finish_edges` after a sweep; specification: SpecCircle.v | with C34, what `cut_line` picks for two ends on either side of the circle is the end of the part in the disk (CircleClip.v); at y = -1000 every edge of the sweep has two different ends, on the disk it covers the points with both its sites nearest, and as the circle has the sites inside every line of an edge meets the disk (CircleVoronoi.v); a point of the circle on an edge is an end of what is left of it, as the circle is strictly convex; refuted for four sites around one vertex outside the circle, by a run |
| C71 | the finished diagram; specification: SpecNeighbours.v | strictly between two points with nearest sites p and q only these two are nearest and the point is inside; there the side of the cell of p (C67) has q behind it; two sides towards the same q are on one line, and no end of one lies strictly inside their hull; the two nearest sites of two groups have only each other nearest at their middle, so no group is separate (NeighbourFacts.v) |
| C72 | two runs of `create_diagram` | from C57; if a point is lost to the new site, the new cell shares two points with the old one: on the ways from the site and from a point beside it (NeighbourFacts.v); for the areas, each side of the new cell that is not towards the new site is a part of its own side of the old cell, and the signed triangles over the sides are compared from a point of the old cell: one where the common side counts nothing, or, for a neighbour, one it loses (ShrinkFacts.v, PropShrink.v) |
| C73 | the finished diagram, `cell_vertices` | a point of a cell is on a segment from the site to a side of the cell (C67), and on a segment one of the two ends is farthest from the site, strictly unless it is the point; the ends are located vertices of the walk; the best of the finitely many pairs of a vertex and a site (FarthestFacts.v) |
| C74 | the finished diagram, the counts of C69 | a half-edge leading from one cell to another is a kept edge of the sweep or the twin of one, since border edges have no site on one side; it determines both sites; the sweep has at most 3 n - 4 edges (CountFacts.v) |
| C75 | `area` with a number of digits (Rounding.v): numpy's rint of the exact area times 10^digits | the integer part and the three cases of rint; the sum from C58 |
| C76 | the finished diagram; two runs of `create_diagram` for the last claim | a point outside of a cell (C57) is on the outer side of one of its sides; this is no side of the polygon, so a neighbour is behind it, and nearer; on the way from the point to its second nearest site there is a place with these two nearest sites only (GreedyFacts.v) |
| C77 | the finished diagram; specification: `enclosed_strictly` in SpecParts.v | from C57: a point strictly inside of a cell can be moved a little in any direction without leaving it, so no other site is as near and it is not on the outline; a point with one nearest site can be moved a little across a side it would be on (PartFacts.v) |
| C78 | two runs of `create_diagram` with different polygons | cells and neighbours from C57, C71 and C50; a cell that does not reach the outline: on the way from the site to a point of the cell outside of the polygon there would be a point of the outline in the cell; the sides are then the same and so are the areas (PartFacts.v) |
| C79 | `Repr.v` (`repr_point`, `repr_half_edge`, `repr_vertex`) after `create_diagram`; the text of a number is an arbitrary function `fmt` | the sites on both sides from the facts of C57 and C71, the names from C59; different names have different digits and no digit is a slash, so the text gives back both sites, and between two cells there is one side only (C71); on the outline the texts repeat (C79_outline_refuted, by evaluation) |
| C80 | `Picture.v` (`set_limits`, `get_canvas`, `show`) after `plot_all`; specification: `in_picture` (SpecPicture.v) | in any direction some corner is at least as low as a point of the polygon: seen from a point lower than all corners the angles would fall from corner to corner all the way around; then the extremes of C31 and C64, and what is drawn from C59 and C66 |
| C81 | `borders` after `create_diagram`; specification: `neighbour`, `nearest`, `on_boundary` | along the half-line the site stays nearer than its neighbours, so nearest (C76), up to the outline, which a bounded polygon has (C80); a second nearest site there would be a neighbour (C76); a point of the cell that is not strictly in it is on the line of a border (C77), and a border with a neighbour behind it has that neighbour nearest as well |

Refuted properties stay in the list with status `partial`; the refuting theorem has the suffix `_refuted`, what can still be proved
has the suffix `_partial` (or is a separate clause).

## 3. Trusted base

* Coq 8.16.1's kernel (including the VM used by `vm_compute` in witnesses; `coqchk` re-checks without the VM).
* That the definitions listed in section 4 say what the Python code does.  Each carries the file and lines it models.
* CPython behaviour that is modelled rather than derived: `heapq`, list methods, `min`/`max`, `sorted` (stable), attribute access on `None`
  raising `AttributeError`, `decimal` with the default context (`DecArith`), numpy's `arctan2`, `dot`, `argmax`.
* No axiom, parameter, admitted proof or functor is added.  `Print Assumptions` (run after every property theorem) gives two outcomes:
  * **Closed under the global context** for: C65_target, C79_outline_refuted, C01_event_order, C02_queue_minimal, C03_site_order, C07_rotations, C07_balance, C08_neighbours, C09_some_leaf, C09_bracketed, C10_find_value, C10_find_value_refuted, C11_site_event, C11_beach_line, C12_circle_event, C13_sweep_ends, C13_sweep_result, lawful_decimal, C14_twins, C15_next_prev, C15_no_next, C16_vertex_edges, C16_vertex_known, C17_edge_count, C19_no_false_alarm, C24_refuted, C24_cells_refuted, C70_four_refuted, C25_clipping, C26_border, C27_single_site, C28_zero_length, C28_vertices_refuted, C30_borders, C30_no_first_edge, C30_vertices, C30_cells, C32_delivery, C32_delivery_child_partial, C32_detach_absent, C32_attached_before_inherit_refuted, C32_grandchild_refuted, C32_detach_while_notified_refuted, C33_messages, C33_sweep_messages, C35_refuted, C36_balanced_refuted, C36_heights_refuted, C36_balance_partial, C37_refuted, C37_within_partial, C37_meets_partial, C38_empty, C38_again, C38_again_refuted, C39_first_edge, C40_insert, C40_insert_all, C40_insert_repeated_refuted, C40_insert_raises_refuted, C40_delete_absent, C40_delete_partial, C40_delete_two_children, C40_delete_refuted, C40_delete_root_refuted, C43_finished, C43_raises, C53_drawing_changes_nothing, C54_triangles_refuted, C54_polygon_outline, C61_notifications, C66_debug, C62_text, C62_graph, C62_labels, C62_numbers, C62_observer, C63_isolated_partial, C44_closest, C44_outcome, C45_find, C45_get_leaves, C64_empty_list, C68_borders, C68_vertices, C68_incomplete_refuted, C69_sizes, C69_swept, C69_finished, C69_cleaned.
  * The axioms of the standard library's real numbers and nothing else -- `ClassicalDedekindReals.sig_not_dec`, `ClassicalDedekindReals.sig_forall_dec`,
    `FunctionalExtensionality.functional_extensionality_dep`, `Classical_Prop.classic` -- for: C04_circumcircle, C05_breakpoint, C06_convergence, lawful_real, C13_sweep_returns, C13_create_diagram_returns, C18_sweep_edge, C18_sweep_vertex, C23_ends, C20_sweep_line, C21_empty_circle, C22_box, C22_convex, C23_clipped, C24_low_line_partial, C29_area, C31_corner_order, C34_get_line, C65_vertices, C81_rim, C81_hull, C81_inside, C81_default, C80_margin, C80_offset, C80_figure, C80_default, C79_tells, C79_between, C79_unique, C79_vertices, C79_default, C71_neighbours, C71_once, C71_nearest, C71_linked, C71_gabriel, C71_cut, C71_circle, C71_default, C72_shrinks, C72_far, C72_area, C72_same_area, C72_loses, C72_taken, C73_farthest, C73_largest, C73_default, C74_pairs, C74_five, C74_touch, C74_default, C75_rounded, C75_raises, C75_order, C75_sum, C75_default, C76_local, C76_reaches, C76_steps, C76_second, C76_remove, C76_default, C77_cover, C77_inside, C77_own, C77_apart, C77_default, C78_cells, C78_neighbours, C78_vertices, C78_same, C70_inside, C70_edge, C70_voronoi, C34_cut_circle, C34_cut_line, C41_no_exception, C42_order, C42_stands, C42_now, C46_edges_are_voronoi, C46_voronoi_has_edges, C46_pair, C47_vertices, C48_lower_envelope, C49_plot, C49_breakpoint, C50_edges_are_voronoi, C50_voronoi_has_edges, C50_vertices, C50_box, C55_one_edge, C55_no_overlap, C56_border_edges, C56_outline_covered, C56_no_overlap, C57_cells, C57_face, C58_areas, C59_edge_lines, C59_edge_labels, C59_sites, C59_names, C59_vertices, C59_pointers, C59_arrows, C59_plot_all, C60_zero_length, C60_default_diagram, C60_default_cells, C61_figures, C61_assertion, C61_step_drawn, C61_result_drawn, C63_alone, C63_isolation_refuted, C51_beach_line, C52_edges, C52_now, C54_sweep_line_zero_refuted, C54_sweep_line, C54_circle_outline_refuted, C64_current_event, C64_site_event, C64_pending_event, C64_arcs, C64_no_arcs, C64_given_edges, C64_given_vertices, C64_given_sites, C64_canvas_polygon, C64_canvas_circle, C65_links, C65_turn, C65_twin_next_refuted, C65_default, C66_figure, C66_result, C66_step, C67_sides, C67_area, C67_similar, C67_drawn, C67_order.

## 4. What is modelled

| code | model |
|---|---|
| `events/event.py`, `site_event.py`, `circle_event.py` | Sweep.v, State.v (`ev_lt`, `create_circle`, `create_circle_event`, `remove`), heapq in Heapq.v |
| `nodes/arc.py`, `breakpoint.py`, `internal_node.py`, `leaf_node.py` | Geom.v (`get_intersection`, `get_plot`), Tree.v |
| `tree/node.py`, `tree/tree.py` | Tree.v; `visualize` in Watch.v |
| `graph/algebra.py`, `coordinate.py`, `point.py`, `vertex.py`, `half_edge.py` | Geom.v, State.v, Finish.v; `area(digits)` in Rounding.v; `__repr__` of points, vertices and half-edges in Repr.v |
| `graph/polygon.py`, `bounding_box.py` | Geom.v, Finish.v |
| `algorithm.py` | Sweep.v (`initialize`, event loop, both handlers, `_check_circles`, `_update_breakpoints`), Finish.v (`create_diagram`, clean-up) |
| `observers/subject.py`, `observer.py` | Observers.v; messages sent by the algorithm: the log of State.v |
| `observers/voronoi_observer.py`, `tree_observer.py`, `debug_observer.py`, `visualization/tree_visualizer.py` | Watch.v: what is passed to the callback, without titles; the graph is the list of calls on the `Digraph` |
| `contrib/bounding_circle.py` | Circle.v |
| `visualization/visualizer.py` | Visual.v, Picture.v: all `plot_*` functions as the list of calls made on the matplotlib canvas, without line widths, sizes, z-orders and fonts |

Simplifications (also stated beside the definitions): objects are heap indices, `is`/default `==` is equality of indices; loops carry fuel and a
theorem (C13) shows how much is enough; payloads of notifications are reduced to the message and the sweep line; the arithmetic is abstract, with the laws
a theorem needs as hypotheses (`lawful`), shown to hold for exact reals (`lawful_real`) and for 28-digit decimals (`lawful_decimal`).

Not modelled: figure handling (`plt.subplots`, `plt.close`) and matplotlib itself, rendering by graphviz, the `__repr__` strings of events, coordinates, arcs, breakpoints and tree nodes, `tests/`, logging.
The geometric theorems (C04-C06, C18, C20-C23, C29, C31, C34, C41, C42, C46-C52, C70-C81) are about exact arithmetic; rounding errors of 28-digit decimals and of binary
floats are not bounded.
