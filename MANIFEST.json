{
 "claims": [
  {
   "property": "C01",
   "status": "proved",
   "theorems": [
    "C01_event_order"
   ],
   "note": ""
  },
  {
   "property": "C02",
   "status": "proved",
   "theorems": [
    "C02_queue_minimal"
   ],
   "note": ""
  },
  {
   "property": "C03",
   "status": "proved",
   "theorems": [
    "C03_site_order"
   ],
   "note": "any lawful arithmetic (lawful_real, lawful_decimal)"
  },
  {
   "property": "C04",
   "status": "proved",
   "theorems": [
    "C04_circumcircle"
   ],
   "note": "Exact real arithmetic; also uniqueness of the centre."
  },
  {
   "property": "C05",
   "status": "proved",
   "theorems": [
    "C05_breakpoint"
   ],
   "note": "Exact real arithmetic, sites on or above the sweep line."
  },
  {
   "property": "C06",
   "status": "proved",
   "theorems": [
    "C06_convergence"
   ],
   "note": "Exact real arithmetic."
  },
  {
   "property": "C07",
   "status": "proved",
   "theorems": [
    "C07_rotations",
    "C07_balance"
   ],
   "note": ""
  },
  {
   "property": "C08",
   "status": "proved",
   "theorems": [
    "C08_neighbours"
   ],
   "note": ""
  },
  {
   "property": "C09",
   "status": "proved",
   "theorems": [
    "C09_some_leaf",
    "C09_bracketed"
   ],
   "note": ""
  },
  {
   "property": "C10",
   "status": "proved",
   "theorems": [
    "C10_find_value",
    "C10_find_value_refuted"
   ],
   "note": "the claim without the proviso on keys is refuted"
  },
  {
   "property": "C11",
   "status": "proved",
   "theorems": [
    "C11_site_event",
    "C11_beach_line"
   ],
   "note": "any lawful arithmetic"
  },
  {
   "property": "C12",
   "status": "proved",
   "theorems": [
    "C12_circle_event"
   ],
   "note": "any lawful arithmetic"
  },
  {
   "property": "C13",
   "status": "proved",
   "theorems": [
    "C13_sweep_ends",
    "C13_sweep_result",
    "lawful_real",
    "lawful_decimal",
    "C13_sweep_returns",
    "C13_create_diagram_returns"
   ],
   "note": "At most 7n+1 iterations. In exact arithmetic, for distinct sites, nothing is raised at all (sweep), and neither by create_diagram when no site is below polygon.finish_sweep_line."
  },
  {
   "property": "C14",
   "status": "proved",
   "theorems": [
    "C14_twins"
   ],
   "note": ""
  },
  {
   "property": "C15",
   "status": "proved",
   "theorems": [
    "C15_next_prev",
    "C15_no_next"
   ],
   "note": ""
  },
  {
   "property": "C16",
   "status": "proved",
   "theorems": [
    "C16_vertex_edges",
    "C16_vertex_known"
   ],
   "note": ""
  },
  {
   "property": "C17",
   "status": "proved",
   "theorems": [
    "C17_edge_count"
   ],
   "note": ""
  },
  {
   "property": "C18",
   "status": "proved",
   "theorems": [
    "C18_sweep_edge",
    "C18_sweep_vertex",
    "C23_ends"
   ],
   "note": "Exact arithmetic; during the sweep and in the finished diagram."
  },
  {
   "property": "C19",
   "status": "proved",
   "theorems": [
    "C19_no_false_alarm"
   ],
   "note": ""
  },
  {
   "property": "C20",
   "status": "proved",
   "theorems": [
    "C20_sweep_line"
   ],
   "note": "Exact arithmetic, pairwise distinct sites."
  },
  {
   "property": "C21",
   "status": "proved",
   "theorems": [
    "C21_empty_circle"
   ],
   "note": "Exact arithmetic, pairwise distinct sites; C47 says more."
  },
  {
   "property": "C22",
   "status": "proved",
   "theorems": [
    "C22_box",
    "C22_convex"
   ],
   "note": "Box: exact half-open description. Convex polygon: interior points inside, exterior points outside (points on the border are not claimed)."
  },
  {
   "property": "C23",
   "status": "proved",
   "theorems": [
    "C23_clipped",
    "C23_ends"
   ],
   "note": "Exact arithmetic, every polygon, with and without the clean-up."
  },
  {
   "property": "C24",
   "status": "partial",
   "theorems": [
    "C24_refuted",
    "C24_cells_refuted",
    "C24_low_line_partial"
   ],
   "note": "REFUTED in general: two sites in the middle of BoundingBox(-9,9,-9,9): the only edge, which crosses the whole box, is dropped by finish_edges, because the sweep line position min_y - |max_y| leaves its open end inside the box. Consequence: one cell is empty, the other is the whole box. C24_low_line_partial proves the property for convex polygons when that line lies below the sites, the polygon and the Voronoi vertices (and no vertex is on the outline, and several equally highest sites are inside the polygon)."
  },
  {
   "property": "C25",
   "status": "proved",
   "theorems": [
    "C25_clipping"
   ],
   "note": "Any lawful arithmetic, any polygon: exactly the edges with two located ends are returned, in order; every end is a vertex that lists the half-edge; next/prev among the kept halves stay consistent; the only exceptions are decimal arithmetic errors."
  },
  {
   "property": "C26",
   "status": "proved",
   "theorems": [
    "C26_border"
   ],
   "note": "One edge per located border vertex, vertices locally sorted by the clockwise key, consecutive edges share vertices, outer twins border no site, and which site each border edge gets."
  },
  {
   "property": "C27",
   "status": "proved",
   "theorems": [
    "C27_single_site"
   ],
   "note": "Any lawful arithmetic, any corners at pairwise different places, with and without clean-up."
  },
  {
   "property": "C28",
   "status": "partial",
   "theorems": [
    "C28_zero_length",
    "C28_vertices_refuted"
   ],
   "note": "Zero-length part proved in full: exactly the edges of length zero are removed and no other edge changes place. The second half (every remaining edge starts at one of the vertices) is refuted: connected_edges is modified while iterated over, four sites on a circle leave an edge ending at a removed vertex."
  },
  {
   "property": "C29",
   "status": "proved",
   "theorems": [
    "C29_area"
   ],
   "note": "Exact real arithmetic."
  },
  {
   "property": "C30",
   "status": "proved",
   "theorems": [
    "C30_borders",
    "C30_no_first_edge",
    "C30_vertices",
    "C30_cells"
   ],
   "note": "borders() returns exactly the walk along next from first_edge, for any half-edge structure; after finish_polygon every such walk is closed provided no dropped edge had an end inside the polygon (see C24)."
  },
  {
   "property": "C31",
   "status": "proved",
   "theorems": [
    "C31_corner_order"
   ],
   "note": "Exact real arithmetic."
  },
  {
   "property": "C32",
   "status": "partial",
   "theorems": [
    "C32_delivery",
    "C32_delivery_child_partial",
    "C32_detach_absent",
    "C32_attached_before_inherit_refuted",
    "C32_grandchild_refuted",
    "C32_detach_while_notified_refuted"
   ],
   "note": "Delivery, order, sender and failing detach proved for all histories; visibility to children proved except when the observers were attached before the child began to inherit, when the child has children of its own, or when an observer detaches itself while being called: those cases are refuted."
  },
  {
   "property": "C33",
   "status": "proved",
   "theorems": [
    "C33_messages",
    "C33_sweep_messages"
   ],
   "note": "Whole of create_diagram."
  },
  {
   "property": "C34",
   "status": "proved",
   "theorems": [
    "C34_get_line",
    "C34_cut_circle",
    "C34_cut_line"
   ],
   "note": "In exact arithmetic, for distinct ends; when the line misses the circle the code raises InvalidOperation (stated in the theorems)."
  },
  {
   "property": "C35",
   "status": "partial",
   "theorems": [
    "C35_refuted"
   ],
   "note": "The claim is false: proved that create_diagram with a BoundingCircle raises for every circle, all sites and any arithmetic (finish_edges returns a pair, which has no append)."
  },
  {
   "property": "C36",
   "status": "partial",
   "theorems": [
    "C36_balanced_refuted",
    "C36_heights_refuted",
    "C36_balance_partial"
   ],
   "note": "Refuted for runs of the sweep: four sites on a horizontal line leave an unbalanced status tree, and another run leaves wrong cached heights. Proved: Tree.balance itself restores balance and heights when the cached heights are right and the subtrees differ by at most two."
  },
  {
   "property": "C37",
   "status": "partial",
   "theorems": [
    "C37_refuted",
    "C37_within_partial",
    "C37_meets_partial"
   ],
   "note": "Refuted: from a point outside the polygon the point chosen can lie beyond end (index into the unfiltered list). Proved: the chosen point is always on the ray and on a side; and when no meeting point lies beyond end the furthest one is chosen."
  },
  {
   "property": "C38",
   "status": "partial",
   "theorems": [
    "C38_empty",
    "C38_again",
    "C38_again_refuted"
   ],
   "note": "Empty list proved for all polygons. Second run: refuted by a concrete pair of runs; proved for all inputs that a second run adds no Voronoi vertex."
  },
  {
   "property": "C39",
   "status": "proved",
   "theorems": [
    "C39_first_edge"
   ],
   "note": ""
  },
  {
   "property": "C40",
   "status": "partial",
   "theorems": [
    "C40_insert",
    "C40_insert_all",
    "C40_insert_repeated_refuted",
    "C40_insert_raises_refuted",
    "C40_delete_absent",
    "C40_delete_partial",
    "C40_delete_two_children",
    "C40_delete_refuted",
    "C40_delete_root_refuted"
   ],
   "note": "insert: proved for trees with pairwise different keys and for all histories of insertions of different keys; with repeated keys balance fails and insert can raise (refuted). delete: exactly the node is removed when it has at most one child (a deleted root stays the parent of the new root), nothing is removed for an absent key; for a node with two children delete always raises AttributeError (refuted)."
  },
  {
   "property": "C41",
   "status": "proved",
   "theorems": [
    "C41_no_exception"
   ],
   "note": "Exact real arithmetic."
  },
  {
   "property": "C42",
   "status": "proved",
   "theorems": [
    "C42_order",
    "C42_stands",
    "C42_now"
   ],
   "note": "Exact arithmetic, pairwise distinct sites. 'During the sweep' is between_events: any position of the sweep line from the last event down to the next pending circle event."
  },
  {
   "property": "C43",
   "status": "proved",
   "theorems": [
    "C43_finished",
    "C43_raises"
   ],
   "note": "Any lawful arithmetic, any polygon."
  },
  {
   "property": "C44",
   "status": "proved",
   "theorems": [
    "C44_closest",
    "C44_outcome"
   ],
   "note": ""
  },
  {
   "property": "C45",
   "status": "proved",
   "theorems": [
    "C45_find",
    "C45_get_leaves"
   ],
   "note": ""
  },
  {
   "property": "C46",
   "status": "proved",
   "theorems": [
    "C46_edges_are_voronoi",
    "C46_voronoi_has_edges",
    "C46_pair"
   ],
   "note": "Exact arithmetic, pairwise distinct sites. The sweep always returns for such sites (see C46_C47_case for a case and sweep_total in SweepTotal.v for all)."
  },
  {
   "property": "C47",
   "status": "proved",
   "theorems": [
    "C47_vertices"
   ],
   "note": "Exact arithmetic, pairwise distinct sites."
  },
  {
   "property": "C48",
   "status": "proved",
   "theorems": [
    "C48_lower_envelope"
   ],
   "note": "Exact arithmetic, pairwise distinct sites."
  },
  {
   "property": "C49",
   "status": "proved",
   "theorems": [
    "C49_plot",
    "C49_breakpoint"
   ],
   "note": "Exact arithmetic, for one x at a time (the array version maps over x)."
  },
  {
   "property": "C50",
   "status": "proved",
   "theorems": [
    "C50_edges_are_voronoi",
    "C50_voronoi_has_edges",
    "C50_vertices",
    "C50_box"
   ],
   "note": "Exact arithmetic. The conditions (low_line, generic_polygon, extent and tops_inside in SpecClip.v) are part of the property: without the first the code loses edges (C24_refuted). C50_box restates the result for BoundingBox with sufficient conditions. C50_vertices is for remove_zero_length_edges=False."
  },
  {
   "property": "C51",
   "status": "proved",
   "theorems": [
    "C51_beach_line"
   ],
   "note": "exact arithmetic; needs some seen site above the line"
  },
  {
   "property": "C52",
   "status": "proved",
   "theorems": [
    "C52_edges",
    "C52_now"
   ],
   "note": "exact arithmetic; a canvas whose top is at y = 0 is excluded for completeness"
  },
  {
   "property": "C53",
   "status": "proved",
   "theorems": [
    "C53_drawing_changes_nothing"
   ],
   "note": ""
  },
  {
   "property": "C54",
   "status": "partial",
   "theorems": [
    "C54_triangles_refuted",
    "C54_sweep_line_zero_refuted",
    "C54_circle_outline_refuted",
    "C54_sweep_line",
    "C54_polygon_outline"
   ],
   "note": "refuted: triangles=True suppresses the event, sweep_line=0 is ignored, a bounding circle is drawn around (x, x); the rest of the arguments as stated"
  },
  {
   "property": "C55",
   "status": "proved",
   "theorems": [
    "C55_one_edge",
    "C55_no_overlap"
   ],
   "note": "after the sweep and for the finished diagram in a convex polygon; exact arithmetic"
  },
  {
   "property": "C56",
   "status": "proved",
   "theorems": [
    "C56_border_edges",
    "C56_outline_covered",
    "C56_no_overlap"
   ],
   "note": "Exact arithmetic, without the zero-length clean-up; 'regular' collects the assumptions."
  },
  {
   "property": "C57",
   "status": "proved",
   "theorems": [
    "C57_cells",
    "C57_face"
   ],
   "note": "Exact arithmetic, flag off, regular inputs (SpecClip.v): convex polygon, sites strictly inside, general position, box centre inside."
  },
  {
   "property": "C58",
   "status": "proved",
   "theorems": [
    "C58_areas"
   ],
   "note": "Exact arithmetic, regular inputs (convex polygon around the sites, general position)."
  },
  {
   "property": "C59",
   "status": "proved",
   "theorems": [
    "C59_edge_lines",
    "C59_edge_labels",
    "C59_sites",
    "C59_names",
    "C59_vertices",
    "C59_pointers",
    "C59_arrows",
    "C59_plot_all"
   ],
   "note": "Exact arithmetic, regular sites and polygon, flag off."
  },
  {
   "property": "C60",
   "status": "proved",
   "theorems": [
    "C60_zero_length",
    "C60_default_diagram",
    "C60_default_cells"
   ],
   "note": "Edges of length zero exist exactly at points with four nearest sites; without such points the clean-up changes nothing, and C57 and C58 hold for the default call."
  },
  {
   "property": "C61",
   "status": "proved",
   "theorems": [
    "C61_notifications",
    "C61_figures",
    "C61_assertion",
    "C61_step_drawn",
    "C61_result_drawn"
   ],
   "note": "any distinct sites, any polygon, both flags, exact arithmetic; contents of the figures: C51-C53, C59"
  },
  {
   "property": "C62",
   "status": "proved",
   "theorems": [
    "C62_text",
    "C62_graph",
    "C62_labels",
    "C62_numbers",
    "C62_observer"
   ],
   "note": "any lawful arithmetic"
  },
  {
   "property": "C63",
   "status": "partial",
   "theorems": [
    "C63_isolation_refuted",
    "C63_isolated_partial",
    "C63_alone"
   ],
   "note": "refuted: settings are written into the class attributes of Presets; proved for an observer alone, and for keys that no other observer sets differently"
  },
  {
   "property": "C64",
   "status": "proved",
   "theorems": [
    "C64_current_event",
    "C64_site_event",
    "C64_pending_event",
    "C64_arcs",
    "C64_no_arcs",
    "C64_given_edges",
    "C64_given_vertices",
    "C64_given_sites",
    "C64_empty_list",
    "C64_canvas_polygon",
    "C64_canvas_circle"
   ],
   "note": "Exact arithmetic. Pending events: those in the queue that are not cancelled. C64_empty_list: an empty list counts as no list."
  },
  {
   "property": "C65",
   "status": "proved",
   "theorems": [
    "C65_links",
    "C65_turn",
    "C65_default",
    "C65_twin_next_refuted",
    "C65_vertices",
    "C65_target"
   ],
   "note": "links and turning for every regular input with edges of length zero kept, and for the default call when no point has four nearest sites; the documented twin.next = prev is refuted for every inner edge"
  },
  {
   "property": "C66",
   "status": "proved",
   "theorems": [
    "C66_figure",
    "C66_result",
    "C66_step",
    "C66_debug"
   ],
   "note": "every figure of an observer in a run is made of exactly the parts whose keyword is on; what the parts of a step and of the result show; debug messages"
  },
  {
   "property": "C67",
   "status": "proved",
   "theorems": [
    "C67_sides",
    "C67_area",
    "C67_similar",
    "C67_drawn",
    "C67_order"
   ],
   "note": "Exact real arithmetic; regular inputs; remove_zero_length_edges off. C67_similar assumes that the image input is regular too; C67_order proves it."
  },
  {
   "property": "C68",
   "status": "proved",
   "theorems": [
    "C68_borders",
    "C68_vertices",
    "C68_incomplete_refuted"
   ],
   "note": "As stated, including the refutation of the documented None (C68_incomplete_refuted): while borders are missing a part of them is returned"
  },
  {
   "property": "C69",
   "status": "proved",
   "theorems": [
    "C69_sizes",
    "C69_swept",
    "C69_finished",
    "C69_cleaned"
   ],
   "note": "Exact count of edges and handled events and bounds on vertices, arcs and queue after every event; linear bounds for the result"
  },
  {
   "property": "C70",
   "status": "proved",
   "theorems": [
    "C70_inside",
    "C70_edge",
    "C70_voronoi",
    "C70_four_refuted"
   ],
   "note": "In exact arithmetic.  The whole-diagram theorem asks for at most three nearest sites everywhere; without that it is refuted (C70_four_refuted, 28-digit decimals).  create_diagram itself always raises with a circle (C35), so the theorem is about the sweep followed by finish_edges."
  },
  {
   "property": "C71",
   "status": "proved",
   "theorems": [
    "C71_neighbours",
    "C71_once",
    "C71_nearest",
    "C71_linked",
    "C71_default",
    "C71_gabriel",
    "C71_cut",
    "C71_circle"
   ],
   "note": "In exact arithmetic, for the call without remove_zero_length_edges; C71_default for the default call when no point has four nearest sites."
  },
  {
   "property": "C72",
   "status": "proved",
   "theorems": [
    "C72_shrinks",
    "C72_far",
    "C72_area",
    "C72_same_area",
    "C72_loses",
    "C72_taken"
   ],
   "note": "In exact arithmetic."
  },
  {
   "property": "C73",
   "status": "proved",
   "theorems": [
    "C73_farthest",
    "C73_largest",
    "C73_default"
   ],
   "note": "Exact arithmetic."
  },
  {
   "property": "C74",
   "status": "proved",
   "theorems": [
    "C74_pairs",
    "C74_five",
    "C74_touch",
    "C74_default"
   ],
   "note": "Exact arithmetic."
  },
  {
   "property": "C75",
   "status": "proved",
   "theorems": [
    "C75_rounded",
    "C75_raises",
    "C75_order",
    "C75_sum",
    "C75_default"
   ],
   "note": "Exact arithmetic: the errors of the float product and quotient inside numpy's round are not modelled."
  },
  {
   "property": "C76",
   "status": "proved",
   "theorems": [
    "C76_local",
    "C76_reaches",
    "C76_steps",
    "C76_second",
    "C76_remove",
    "C76_default"
   ],
   "note": "Exact arithmetic."
  },
  {
   "property": "C77",
   "status": "proved",
   "theorems": [
    "C77_cover",
    "C77_inside",
    "C77_own",
    "C77_apart",
    "C77_default"
   ],
   "note": "In exact arithmetic."
  },
  {
   "property": "C78",
   "status": "proved",
   "theorems": [
    "C78_cells",
    "C78_neighbours",
    "C78_vertices",
    "C78_same"
   ],
   "note": "In exact arithmetic."
  },
  {
   "property": "C79",
   "status": "proved",
   "theorems": [
    "C79_tells",
    "C79_between",
    "C79_unique",
    "C79_vertices",
    "C79_default",
    "C79_outline_refuted"
   ],
   "note": "C79_tells: the text of a listed half-edge; C79_between and C79_unique: the text of a side between two cells, and no other side has it; C79_vertices; C79_default for the default call. C79_outline_refuted: on the outline texts repeat. The text of a number is an arbitrary function."
  },
  {
   "property": "C80",
   "status": "proved",
   "theorems": [
    "C80_margin",
    "C80_offset",
    "C80_figure",
    "C80_default"
   ],
   "note": "C80_margin: the limits leave the margin around every point of the polygon; C80_offset: all corners are in the picture exactly if the offset is not negative; C80_figure: what plot_all draws of the finished diagram, for any arguments (the sweep line, arcs, events and arrows are not claimed to be inside); C80_default: the same for the default call."
  },
  {
   "property": "C81",
   "status": "proved",
   "theorems": [
    "C81_rim",
    "C81_hull",
    "C81_inside",
    "C81_default"
   ],
   "note": "C81_rim (neighbours only), C81_hull, C81_inside (the converse direction), C81_default (default call). For sites and polygons in general position, exact arithmetic."
  }
 ]
}