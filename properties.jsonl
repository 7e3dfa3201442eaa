{"id": "C01", "title": "Event priority order", "statement": "`<` on events is a strict weak order: the event with the larger yd comes first, ties go to the smaller xd, and at the same position a circle event precedes a site event.", "quantifier": "all triples of site/circle events, any coordinates", "why_tests_cant": "transitivity and totality range over all triples of events", "anchors": ["foronoi/events/event.py:Event.__lt__", "foronoi/events/circle_event.py:CircleEvent.yd", "foronoi/events/site_event.py:SiteEvent.yd"]}
{"id": "C02", "title": "The event queue always yields a minimal event", "statement": "After any history of put and get, get returns an element no other queued element precedes, and loses or duplicates no element.", "quantifier": "all histories of put/get on the queue, any contents", "why_tests_cant": "every history, every heap shape", "anchors": ["foronoi/algorithm.py:Algorithm.event_queue", "foronoi/algorithm.py:Algorithm.initialize"]}
{"id": "C03", "title": "Sites are visited top to bottom, left to right", "statement": "create_diagram handles every site exactly once, in the order y descending then x ascending, and site.name is the position in that order.", "quantifier": "all lists of sites, including ties and duplicates, whatever circle events are interleaved", "why_tests_cant": "needs every input list and interleaving", "anchors": ["foronoi/algorithm.py:Algorithm.create_diagram", "foronoi/algorithm.py:Algorithm.initialize"]}
{"id": "C04", "title": "Circumcircle", "statement": "create_circle(a,b,c) returns no circle exactly when the three points are collinear; otherwise the centre is at distance radius from all three points.", "quantifier": "all triples of points (exact arithmetic)", "why_tests_cant": "infinitely many triples", "anchors": ["foronoi/events/circle_event.py:CircleEvent.create_circle"]}
{"id": "C05", "title": "Breakpoint position", "statement": "Breakpoint.get_intersection(l) is a point on both parabolas (equidistant from both sites and from the sweep line), and is the crossing at which the left site's arc is lower on the left and the right site's arc lower on the right.", "quantifier": "all pairs of sites on or above all sweep positions (exact arithmetic)", "why_tests_cant": "infinitely many configurations, several branches with a closed-form root", "anchors": ["foronoi/nodes/breakpoint.py:Breakpoint.get_intersection", "foronoi/nodes/breakpoint.py:Breakpoint.does_intersect"]}
{"id": "C06", "title": "Convergence test is orientation", "statement": "For three points on a circle, check_clockwise(a,b,c,centre) is true exactly when a,b,c are visited clockwise.", "quantifier": "all triples of distinct cocircular points (exact arithmetic)", "why_tests_cant": "trigonometric identity over a continuum", "anchors": ["foronoi/graph/algebra.py:Algebra.check_clockwise", "foronoi/graph/algebra.py:Algebra.calculate_angle"]}
{"id": "C07", "title": "Rebalancing preserves the beach line", "statement": "Rotations, balance and balance_and_propagate keep the left-to-right sequence of arcs and breakpoints, keep all parent/child links mutually consistent, and never raise.", "quantifier": "all trees, all cached heights (even stale), all nodes", "why_tests_cant": "all tree shapes", "anchors": ["foronoi/tree/tree.py:Tree.rotate_left", "foronoi/tree/tree.py:Tree.rotate_right", "foronoi/tree/tree.py:Tree.balance", "foronoi/tree/tree.py:Tree.balance_and_propagate"]}
{"id": "C08", "title": "Neighbours on the beach line", "statement": "successor and predecessor of a leaf are the next and previous leaf in left-to-right order, None at the ends.", "quantifier": "all trees, all leaves", "why_tests_cant": "all tree shapes", "anchors": ["foronoi/tree/node.py:Node.successor", "foronoi/tree/node.py:Node.predecessor"]}
{"id": "C09", "title": "Arc lookup", "statement": "find_leaf_node always returns a leaf of the tree, and when breakpoint keys increase from left to right it returns an arc whose neighbouring breakpoints bracket the key.", "quantifier": "all trees, keys, sweep positions", "why_tests_cant": "all tree shapes and keys", "anchors": ["foronoi/tree/tree.py:Tree.find_leaf_node"]}
{"id": "C10", "title": "Value lookup does not depend on the order of keys", "statement": "find_value returns a node satisfying the comparison whenever the tree contains one, provided matching nodes have a key equal to the query's, however the other keys are ordered (rounding errors included); it returns None when no node matches. (Without the proviso the claim is false: a matching node whose own key differs from the query's is skipped.)", "quantifier": "all trees, all key functions, all comparisons", "why_tests_cant": "all tree shapes and all arithmetic errors", "anchors": ["foronoi/tree/tree.py:Tree.find_value"]}
{"id": "C11", "title": "Effect of a site event", "statement": "A site event replaces the arc above the site by old-new-old (old-new if both sites share the top y and the old one is left), every other arc and its order unchanged, and the displaced arc's pending circle event is cancelled.", "quantifier": "all reachable sweep states, all arithmetic", "why_tests_cant": "all histories", "anchors": ["foronoi/algorithm.py:Algorithm.handle_site_event"]}
{"id": "C12", "title": "Effect of a circle event", "statement": "A circle event removes exactly its arc from the beach line, keeps the rest in order, relabels the surviving breakpoint to the two former neighbours and cancels the neighbours' pending events.", "quantifier": "all reachable sweep states, all arithmetic", "why_tests_cant": "all histories", "anchors": ["foronoi/algorithm.py:Algorithm.handle_circle_event", "foronoi/algorithm.py:Algorithm._update_breakpoints"]}
{"id": "C13", "title": "The sweep terminates and raises nothing but arithmetic errors", "statement": "For every list of sites the event loop ends after a number of events linear in the number of sites, and no exception other than one from decimal arithmetic escapes.", "quantifier": "all lists of sites, any arithmetic with a total order on coordinates", "why_tests_cant": "every input and history; termination", "anchors": ["foronoi/algorithm.py:Algorithm.create_diagram", "foronoi/algorithm.py:Algorithm.handle_site_event", "foronoi/algorithm.py:Algorithm.handle_circle_event"]}
{"id": "C14", "title": "Twins", "statement": "At every step each half-edge has a twin, twin is an involution without fixed point, and an edge and its twin border the two different sites whose arcs created them.", "quantifier": "all reachable states", "why_tests_cant": "all histories", "anchors": ["foronoi/graph/half_edge.py:HalfEdge.twin", "foronoi/algorithm.py:Algorithm.handle_site_event", "foronoi/algorithm.py:Algorithm.handle_circle_event"]}
{"id": "C15", "title": "next/prev links", "statement": "After the sweep next and prev are mutually inverse, linked half-edges border the same site, and the end of an edge is the start of its next.", "quantifier": "all lists of sites", "why_tests_cant": "all histories", "anchors": ["foronoi/graph/half_edge.py:HalfEdge.set_next", "foronoi/algorithm.py:Algorithm.handle_circle_event"]}
{"id": "C16", "title": "Vertex incidence", "statement": "After the sweep each vertex has exactly three connected edges, which are exactly the half-edges starting at it.", "quantifier": "all lists of sites", "why_tests_cant": "all histories", "anchors": ["foronoi/graph/vertex.py:Vertex", "foronoi/algorithm.py:Algorithm.handle_circle_event"]}
{"id": "C17", "title": "Edge count", "statement": "After the sweep the number of edges is the number of sites minus one plus the number of vertices, and vertices equals the number of handled circle events.", "quantifier": "all lists of sites", "why_tests_cant": "all histories", "anchors": ["foronoi/algorithm.py:Algorithm.handle_site_event", "foronoi/algorithm.py:Algorithm.handle_circle_event"]}
{"id": "C18", "title": "Edges lie on bisectors", "statement": "Each end of a finished edge is equidistant from the two sites the edge separates, and a vertex is equidistant from the sites of all its edges.", "quantifier": "all lists of pairwise distinct sites (exact arithmetic)", "why_tests_cant": "all inputs and histories", "anchors": ["foronoi/algorithm.py:Algorithm.handle_circle_event", "foronoi/events/circle_event.py:CircleEvent.create_circle"]}
{"id": "C19", "title": "False alarms are never handled", "statement": "When a circle event is handled its arc is still on the beach line and its three sites are those of the arc and its current neighbours.", "quantifier": "all reachable sweep states", "why_tests_cant": "all histories of insertions and cancellations", "anchors": ["foronoi/algorithm.py:Algorithm.create_diagram", "foronoi/events/circle_event.py:CircleEvent.remove", "foronoi/algorithm.py:Algorithm._check_circles"]}
{"id": "C20", "title": "The sweep line never moves up", "statement": "The sweep-line positions seen at successive STEP_FINISHED messages never increase.", "quantifier": "all lists of pairwise distinct sites (exact arithmetic)", "why_tests_cant": "all inputs and histories", "anchors": ["foronoi/algorithm.py:Algorithm.create_diagram", "foronoi/algorithm.py:Algorithm._check_circles"]}
{"id": "C21", "title": "Voronoi vertices", "statement": "Every vertex found by the sweep is at least as close to its sites as to any other site (empty circle).", "quantifier": "all lists of pairwise distinct sites (exact arithmetic)", "why_tests_cant": "all inputs and histories", "anchors": ["foronoi/algorithm.py:Algorithm.handle_circle_event"]}
{"id": "C22", "title": "Point in bounding box / polygon", "statement": "BoundingBox.inside(p) holds exactly for left<=x<right and bottom<=y<top; for a convex polygon inside holds for every interior and no exterior point.", "quantifier": "all boxes, convex polygons and points", "why_tests_cant": "continuum of inputs", "anchors": ["foronoi/graph/polygon.py:Polygon.inside", "foronoi/graph/bounding_box.py:BoundingBox"]}
{"id": "C23", "title": "Clipped ends lie on the polygon and on the bisector", "statement": "A vertex created by clipping an edge lies on a side of the bounding polygon and is equidistant from the two sites of the edge.", "quantifier": "all polygons, all edges (exact arithmetic)", "why_tests_cant": "continuum of inputs", "anchors": ["foronoi/graph/polygon.py:Polygon._finish_edge", "foronoi/graph/polygon.py:Polygon._get_intersection_point", "foronoi/graph/algebra.py:Algebra.line_ray_intersection_point"]}
{"id": "C24", "title": "Clipping keeps every edge that crosses the polygon", "statement": "An edge of which a part lies inside the bounding polygon survives clipping.", "quantifier": "all polygons and sites", "why_tests_cant": "extreme aspect ratios are not sampled", "anchors": ["foronoi/graph/polygon.py:Polygon.finish_edges", "foronoi/graph/polygon.py:Polygon._finish_edge"]}
{"id": "C25", "title": "Clipping result", "statement": "finish_edges raises nothing structural and returns exactly the edges with two located ends, each end a vertex which lists the edge among its connected_edges.", "quantifier": "all states at the end of the sweep, all polygons", "why_tests_cant": "all inputs", "anchors": ["foronoi/graph/polygon.py:Polygon.finish_edges", "foronoi/graph/half_edge.py:HalfEdge.delete"]}
{"id": "C26", "title": "The border is one closed cycle", "statement": "finish_polygon adds exactly one edge per located border vertex, in clockwise order, each starting where the previous ended, the outer twin bordering no site.", "quantifier": "all polygons and clipped edge sets", "why_tests_cant": "all inputs", "anchors": ["foronoi/graph/polygon.py:Polygon.finish_polygon", "foronoi/graph/polygon.py:Polygon._get_ordered_vertices"]}
{"id": "C27", "title": "A single site owns the whole polygon", "statement": "With one site, create_diagram returns the polygon's sides, site.borders() lists all of them in clockwise order and site.vertices() lists all polygon corners.", "quantifier": "all polygons, all sites", "why_tests_cant": "all polygon sizes", "anchors": ["foronoi/algorithm.py:Algorithm.create_diagram", "foronoi/graph/polygon.py:Polygon.finish_polygon", "foronoi/graph/point.py:Point.borders"]}
{"id": "C28", "title": "Zero-length edges are cleaned up", "statement": "With remove_zero_length_edges no zero-length edge remains in edges, and every remaining edge starts at one of the vertices, which lists it.", "quantifier": "all diagrams", "why_tests_cant": "degenerate inputs of every size", "anchors": ["foronoi/algorithm.py:Algorithm.clean_up_zero_length_edges", "foronoi/graph/half_edge.py:HalfEdge.delete"]}
{"id": "C29", "title": "Area", "statement": "Point.area is the shoelace area of the cell's vertices: independent of which edge comes first and of orientation and translation, and equal to the sum of signed triangle areas.", "quantifier": "all vertex lists (exact arithmetic)", "why_tests_cant": "all polygon sizes", "anchors": ["foronoi/graph/point.py:Point.area", "foronoi/graph/point.py:Point._shoelace"]}
{"id": "C30", "title": "borders()/vertices() walk", "statement": "borders() follows next from first_edge and returns each edge of the cycle once; on an open chain it returns the chain up to its end; it terminates exactly in those cases.", "quantifier": "all half-edge structures", "why_tests_cant": "all cycle lengths", "anchors": ["foronoi/graph/point.py:Point.borders", "foronoi/graph/point.py:Point.vertices"]}
{"id": "C31", "title": "Polygon corner order is normalised", "statement": "Polygon(tuples) stores the corners sorted clockwise around the centre of the bounding box, so any permutation of the tuples gives the same polygon when the directions are distinct.", "quantifier": "all corner lists and permutations", "why_tests_cant": "all permutations", "anchors": ["foronoi/graph/polygon.py:Polygon.__init__", "foronoi/graph/polygon.py:Polygon._order_points"]}
{"id": "C32", "title": "Observer delivery", "statement": "notify_observers calls every attached observer once, in attachment order, with the root subject as sender; attach/detach on a parent is visible to its children; detaching an unattached observer raises and changes nothing.", "quantifier": "all histories of attach/detach/inherit/notify", "why_tests_cant": "all histories", "anchors": ["foronoi/observers/subject.py:Subject"]}
{"id": "C33", "title": "Notification protocol of create_diagram", "statement": "Observers see one STEP_FINISHED per handled event with sweep_line equal to the event's yd, then exactly one SWEEP_FINISHED, then exactly one VORONOI_FINISHED, last.", "quantifier": "all lists of sites", "why_tests_cant": "all inputs", "anchors": ["foronoi/algorithm.py:Algorithm.create_diagram", "foronoi/observers/voronoi_observer.py:VoronoiObserver.update"]}
{"id": "C34", "title": "Bounding circle geometry", "statement": "get_line(A,B) is a line through A and B; cut_circle returns the two points common to line and circle; cut_line returns the one on the segment nearest its start.", "quantifier": "all lines and circles (exact arithmetic)", "why_tests_cant": "continuum of inputs", "anchors": ["foronoi/contrib/bounding_circle.py:BoundingCircle.get_line", "foronoi/contrib/bounding_circle.py:BoundingCircle.cut_circle", "foronoi/contrib/bounding_circle.py:BoundingCircle.cut_line", "foronoi/contrib/bounding_circle.py:BoundingCircle.on_line"]}
{"id": "C35", "title": "create_diagram works with a BoundingCircle", "statement": "create_diagram with a BoundingCircle returns normally.", "quantifier": "all circles and sites", "why_tests_cant": "a refutation must cover all inputs", "anchors": ["foronoi/contrib/bounding_circle.py:BoundingCircle.finish_edges", "foronoi/graph/polygon.py:Polygon.finish_polygon"]}
{"id": "C36", "title": "The status tree is height balanced", "statement": "After every event the heights of the children of every node differ by at most one and cached heights are the true heights.", "quantifier": "all histories", "why_tests_cant": "worst cases are not sampled", "anchors": ["foronoi/tree/tree.py:Tree.balance_and_propagate", "foronoi/algorithm.py:Algorithm.handle_site_event", "foronoi/algorithm.py:Algorithm._update_breakpoints"]}
{"id": "C37", "title": "Furthest-intersection choice", "statement": "_get_intersection_point(orig,end) returns a point no further from orig than end is.", "quantifier": "all polygons, origins and ends", "why_tests_cant": "index mix-ups need particular polygon orders", "anchors": ["foronoi/graph/polygon.py:Polygon._get_intersection_point"]}
{"id": "C38", "title": "Empty and repeated use", "statement": "create_diagram([]) raises ValueError whatever the polygon; a second create_diagram on the same object gives the same diagram as on a fresh object.", "quantifier": "all polygons, all first inputs", "why_tests_cant": "all histories", "anchors": ["foronoi/algorithm.py:Algorithm.create_diagram", "foronoi/graph/polygon.py:Polygon._get_closest_point"]}
{"id": "C39", "title": "Every site has a first edge of its own", "statement": "After the sweep of at least two sites every site's first_edge is set and borders that site.", "quantifier": "all lists of sites", "why_tests_cant": "all histories", "anchors": ["foronoi/algorithm.py:Algorithm.handle_site_event", "foronoi/graph/point.py:Point.first_edge"]}
{"id": "C40", "title": "Tree.insert / Tree.delete", "statement": "Tree.insert keeps the search order and adds exactly the new key; Tree.delete removes exactly the given key.", "quantifier": "all trees and keys", "why_tests_cant": "all tree shapes", "anchors": ["foronoi/tree/tree.py:Tree.insert", "foronoi/tree/tree.py:Tree.delete"]}
{"id": "C41", "title": "Discriminant never negative in exact arithmetic", "statement": "get_intersection raises no arithmetic exception for two sites on or above the sweep line.", "quantifier": "all pairs and positions (exact arithmetic)", "why_tests_cant": "continuum", "anchors": ["foronoi/nodes/breakpoint.py:Breakpoint.get_intersection"]}
{"id": "C42", "title": "Beach line order", "statement": "During the sweep consecutive breakpoints never pass each other: their x positions are non-decreasing from left to right.", "quantifier": "all lists of pairwise distinct sites (exact arithmetic)", "why_tests_cant": "all histories", "anchors": ["foronoi/algorithm.py:Algorithm.create_diagram"]}
{"id": "C43", "title": "Every edge of the finished diagram joins two of its vertices", "statement": "After create_diagram(points, remove_zero_length_edges=False) every edge in edges has a twin, both halves start at vertices that have coordinates, that are in vertices and that list the half-edge in connected_edges; the call raises nothing but decimal arithmetic errors.", "quantifier": "all non-empty lists of sites, all polygons with at least two corners", "why_tests_cant": "all inputs, including edges and cells outside the polygon", "anchors": ["foronoi/algorithm.py:Algorithm.create_diagram", "foronoi/graph/polygon.py:Polygon.finish_edges", "foronoi/graph/polygon.py:Polygon.finish_polygon"]}
{"id": "C44", "title": "Nearest site", "statement": "_get_closest_point(position, points) returns a point of the list whose distance to position is least; it raises only for an empty list or an arithmetic exception.", "quantifier": "all positions and lists of points", "why_tests_cant": "ties and orders of the list are not sampled", "anchors": ["foronoi/graph/polygon.py:Polygon._get_closest_point"]}
{"id": "C45", "title": "Tree.find and Tree.get_leaves", "statement": "Tree.find(root, key) returns a node with that key if the search tree has one and None otherwise; Tree.get_leaves(root) returns the nodes without children from left to right.", "quantifier": "all trees and keys", "why_tests_cant": "all tree shapes", "anchors": ["foronoi/tree/tree.py:Tree.find", "foronoi/tree/tree.py:Tree.get_leaves"]}
{"id": "C46", "title": "The edges are the Voronoi edges", "statement": "After the sweep, a point of the plane lies on an edge of the diagram if and only if at least two sites are nearest to it: every point of the edge between sites p and q (the segment between its two vertices, the ray leaving its only vertex, or the whole bisector) is as near to p and to q as to any site, and every point with two nearest sites is on an edge between two sites that are nearest to it.", "quantifier": "all lists of pairwise distinct sites (exact arithmetic), all points of the plane", "why_tests_cant": "The plane and the set of site lists are infinite; a test compares finitely many points of finitely many diagrams.", "anchors": ["foronoi/algorithm.py: Algorithm.create_diagram, handle_site_event, handle_circle_event", "foronoi/graph/half_edge.py: HalfEdge"]}
{"id": "C47", "title": "The vertices are the Voronoi vertices", "statement": "After the sweep, a point is the position of a vertex of the diagram if and only if at least three different sites are nearest to it.", "quantifier": "all lists of pairwise distinct sites (exact arithmetic), all points of the plane", "why_tests_cant": "It must hold for every configuration, including any number of sites on one circle, and excludes both missing and spurious vertices.", "anchors": ["foronoi/algorithm.py: Algorithm.handle_circle_event, check_circles", "foronoi/events/circle_event.py: CircleEvent.create_circle"]}
{"id": "C48", "title": "The beach line is the lower envelope", "statement": "Between two events the arcs of the status tree, from left to right, are the lower envelope of the parabolas of the sites handled so far: every point of an arc between the breakpoints beside it is at least as near to the arc's site as to any site already handled.", "quantifier": "all lists of pairwise distinct sites, all reachable sweep states, all sweep-line positions before the next event (exact arithmetic)", "why_tests_cant": "all histories and all points of all arcs", "anchors": ["foronoi/algorithm.py: Algorithm.handle_site_event, handle_circle_event", "foronoi/nodes/breakpoint.py: Breakpoint.get_intersection", "foronoi/tree/smart_tree.py: SmartTree"]}
{"id": "C49", "title": "Plotted arcs are the parabolas", "statement": "Arc.get_plot(x, sweep_line) returns None exactly when the arc's site is on the sweep line, and otherwise returns for each x the y of the only point (x, y) as far from the site as from the sweep line; a breakpoint lies on the plots of both its arcs.", "quantifier": "all sites, all x, all sweep-line positions (exact arithmetic)", "why_tests_cant": "A test draws finitely many arcs at finitely many positions; the property is about every point of every parabola.", "anchors": ["foronoi/nodes/arc.py: Arc.get_plot", "foronoi/nodes/breakpoint.py: Breakpoint.get_intersection"]}
{"id": "C50", "title": "The finished diagram is the Voronoi diagram inside the polygon", "statement": "create_diagram with a convex bounding polygon, when the finishing sweep line (min_y - |max_y|) lies below the sites, the polygon and the Voronoi vertices, no Voronoi vertex is on the outline and, if several sites share the highest y, these are inside the polygon, gives exactly the Voronoi diagram inside the polygon: every point of an edge between sites p and q is in the polygon and has p and q as nearest sites; every point inside the polygon whose only nearest sites are p and q is on an edge between p and q; and a point inside the polygon is a vertex if and only if three sites are nearest to it.", "quantifier": "all lists of pairwise distinct sites, all convex polygons satisfying the conditions, with and without removal of zero-length edges (vertices: without), all points (exact arithmetic)", "why_tests_cant": "The diagram must be right at every point for every set of sites and every polygon; tests check a few coordinates of a few diagrams.", "anchors": ["foronoi/algorithm.py: Algorithm.create_diagram", "foronoi/graph/polygon.py: Polygon.finish_edges, _finish_edge, _get_intersection_point, finish_polygon", "foronoi/graph/bounding_box.py: BoundingBox"]}
{"id": "C51", "title": "The drawn beach line", "statement": "Between two events, when some site seen so far is above the sweep line, Visualizer.plot_arcs draws exactly one curve in the beach-line color: 1000 points spread evenly over the width of the canvas, each above the sweep line and as far from it as from the nearest site seen so far.", "quantifier": "all lists of pairwise distinct sites, all moments of the sweep, the current or any given non-zero sweep line between two events, all canvases, every iteration order of the set of arcs (exact arithmetic)", "why_tests_cant": "The set iteration order, the dead arcs that stay in the set and the position of the line give unboundedly many drawings; tests only check that nothing is raised.", "anchors": ["foronoi/visualization/visualizer.py: plot_arcs", "foronoi/algorithm.py: arcs, _arcs"]}
{"id": "C52", "title": "Edges drawn during the sweep", "statement": "While the sweep is running, Visualizer.plot_edges raises nothing and draws, below the top of the canvas, only points with two nearest sites, and draws all such points that lie behind the beach line between sites already seen.", "quantifier": "all lists of pairwise distinct sites, all moments of the sweep, the current or any given non-zero sweep line above which nothing is left to happen, all canvases whose top is not at y = 0, all points (exact arithmetic)", "why_tests_cant": "Every point of every half-grown edge at every position of the sweep line is concerned.", "anchors": ["foronoi/visualization/visualizer.py: plot_edges, _plot_edge, _origins", "foronoi/graph/half_edge.py: HalfEdge.get_origin"]}
{"id": "C53", "title": "Drawing changes nothing", "statement": "Visualizer.plot_all with any flags leaves every object of the algorithm as it was, so that observers that draw do not influence the diagram.", "quantifier": "all states, all flags, all bounding objects, all canvases, any arithmetic", "why_tests_cant": "An unwanted write would only show for some states and some combination of 15 flags.", "anchors": ["foronoi/visualization/visualizer.py: plot_all and the plot functions it calls"]}
{"id": "C54", "title": "The arguments of the plot functions are used", "statement": "plot_all(events=True, triangles=True) draws the current circle event with its triangle; a given sweep_line is the one that is used; plot_polygon draws the outline of the bounding object.", "quantifier": "all states, all flags, all values of sweep_line, polygons and bounding circles", "why_tests_cant": "Falsy values and swapped positional arguments concern single values that tests do not hit.", "anchors": ["foronoi/visualization/visualizer.py: plot_all, plot_event, plot_polygon, plot_sweep_line, plot_edges, plot_arcs"]}
{"id": "C55", "title": "Edges do not overlap", "statement": "A point of the plane whose nearest sites are exactly two sites p and q lies on at most one edge of the diagram after the sweep (and, by C46, on exactly one); the same holds for the edges kept by create_diagram with a convex bounding polygon under the conditions of C50.", "quantifier": "all lists of pairwise distinct sites, all points of the plane (exact arithmetic); for the finished diagram all convex polygons satisfying the conditions of C50", "why_tests_cant": "A duplicated or overlapping piece of an edge is invisible in coordinates of vertices; it must be excluded for every pair of edges of every diagram.", "anchors": ["foronoi/algorithm.py: Algorithm.handle_site_event, handle_circle_event, create_diagram", "foronoi/graph/half_edge.py: HalfEdge"]}
{"id": "C56", "title": "The border edges trace the outline of the polygon and are labelled with the nearest site", "statement": "After create_diagram, the edges added along the polygon each lie on one side of it and run clockwise, together cover the whole outline, do not overlap, and the incident point of each is the site nearest to every point of that edge.", "quantifier": "all lists of distinct sites strictly inside a convex polygon, in general position with respect to it, exact arithmetic; all border edges and all points of the outline", "why_tests_cant": "It is a statement about every point of the outline for every arrangement of sites and corners; tests check the number of edges of a few diagrams.", "anchors": ["foronoi/graph/polygon.py:Polygon.finish_polygon", "foronoi/graph/polygon.py:Polygon._get_ordered_vertices", "foronoi/algorithm.py:Algorithm.create_diagram"]}
{"id": "C57", "title": "borders() of a site goes around exactly its Voronoi cell, cut to the polygon", "statement": "After create_diagram, a point of the polygon has the site among its nearest sites if and only if it lies on the right of, or on, every half-edge listed by site.borders(); and from any half-edge of positive length, following next comes back to it around the cell of its incident point.", "quantifier": "all lists of distinct sites strictly inside a convex polygon, in general position with respect to it, exact arithmetic; all sites, all half-edges, all points of the plane", "why_tests_cant": "The links between half-edges are changed by the sweep, by clipping, by clean-up and by the border; that they always end up around the right region for every input cannot be sampled.", "anchors": ["foronoi/graph/point.py:Point.borders", "foronoi/graph/polygon.py:Polygon.finish_edges", "foronoi/graph/polygon.py:Polygon.finish_polygon", "foronoi/algorithm.py:Algorithm.create_diagram"]}
{"id": "C58", "title": "The areas of the cells add up to the area of the polygon", "statement": "After create_diagram, area() returns a positive number for every site, and these numbers add up to the area of the bounding polygon.", "quantifier": "all lists of distinct sites strictly inside a convex polygon, in general position with respect to it, exact arithmetic; all sites", "why_tests_cant": "It says that the cells leave no gap and count nothing twice, for every arrangement of sites; the tests compare a few areas of fixed diagrams.", "anchors": ["foronoi/graph/point.py:Point.area", "foronoi/graph/point.py:Point._shoelace", "foronoi/algorithm.py:Algorithm.create_diagram"]}
{"id": "C59", "title": "The finished diagram is drawn as it is", "statement": "After create_diagram, plot_all with any flags returns. plot_edges shows exactly the outline of the polygon and the Voronoi edges in it, and labels each edge at its middle with the names of the sites nearest there; plot_sites shows each site with its name, its place in reading order; plot_vertices shows exactly the corners, the points of the outline with two nearest sites and the Voronoi vertices inside; plot_border_to_site draws a line from the middle of every half-edge to the site on its side, one per site in the colour of the first edge; plot_outgoing_edges draws one arrow along every half-edge from where it starts.", "quantifier": "all lists of distinct sites strictly inside a convex polygon, in general position with respect to it, exact arithmetic; all flags, scales, canvas sizes and sweep_line arguments; all points of the plane", "why_tests_cant": "A drawing is compared by eye; that no edge, vertex or label is missing, misplaced or wrongly named in any diagram, and that no call raises, ranges over all inputs.", "anchors": ["foronoi/visualization/visualizer.py:Visualizer.plot_all", "foronoi/visualization/visualizer.py:Visualizer.plot_edges", "foronoi/visualization/visualizer.py:Visualizer.plot_vertices", "foronoi/visualization/visualizer.py:Visualizer.plot_sites", "foronoi/visualization/visualizer.py:Visualizer.plot_border_to_site", "foronoi/visualization/visualizer.py:Visualizer.plot_outgoing_edges"]}
{"id": "C60", "title": "Edges of length zero", "statement": "Without remove_zero_length_edges, create_diagram leaves an edge of length zero at a point exactly when that point of the polygon has at least four nearest sites. When there is no such point, remove_zero_length_edges makes no difference: the default call gives the same diagram, so its cells are the Voronoi cells cut to the polygon and their areas add up to the area of the polygon.", "quantifier": "all lists of distinct sites strictly inside a convex polygon, in general position with respect to it, exact arithmetic; all points of the plane", "why_tests_cant": "Whether the clean-up touches anything depends on all the points of the plane that are nearest to four sites, and on every edge of every diagram.", "anchors": ["foronoi/algorithm.py:Algorithm.create_diagram", "foronoi/algorithm.py:Algorithm.clean_up_zero_length_edges"]}
{"id": "C61", "title": "Observers that draw the diagram follow the whole run", "statement": "VoronoiObservers attached to an Algorithm never make create_diagram raise: in every step, after the sweep and at the end, the sweep line is at the event and the drawing is complete. Each observer handles exactly the messages it was asked for, in order, numbers its figures 0, 1, 2, ... and each figure is the drawing of the state at that message, on a canvas of the given offset, with the observer's settings put over the presets.", "quantifier": "all lists of distinct sites, all polygons with at least two corners, both values of remove_zero_length_edges, all lists of observers with any switches and settings, exact arithmetic", "why_tests_cant": "An observer sees every intermediate state of every run, with half-built edges; tests attach one observer to one diagram.", "anchors": ["foronoi/observers/voronoi_observer.py:VoronoiObserver.update", "foronoi/visualization/visualizer.py:Visualizer.plot_all", "foronoi/observers/subject.py:Subject.notify_observers", "foronoi/algorithm.py:Algorithm.create_diagram"]}
{"id": "C62", "title": "The status tree is shown as it is", "statement": "Whenever observers are notified, Node.visualize returns the nodes of the status tree from right to left, one per line, indented by their level, and TreeVisualizer draws every node once and an edge from every node's parent to it. An arc shows the number of its site and a breakpoint the numbers of its two sites, where the number is the place of the site among those handled so far. A TreeObserver never raises and shows this at exactly the messages it was asked for.", "quantifier": "all lists of sites, all reachable states between events, all switches of the observer, any arithmetic with a total order", "why_tests_cant": "The tree is rotated, split and shrunk by every event; that no node is missing or misplaced ranges over all histories.", "anchors": ["foronoi/tree/node.py:Node.visualize", "foronoi/visualization/tree_visualizer.py:TreeVisualizer.plot", "foronoi/observers/tree_observer.py:TreeObserver.update", "foronoi/nodes/leaf_node.py:LeafNode.get_label", "foronoi/nodes/internal_node.py:InternalNode.get_label"]}
{"id": "C63", "title": "Settings of one observer do not change what another one shows", "statement": "The figures of a VoronoiObserver depend on its own settings and the presets only, not on the settings of observers that are or were attached elsewhere.", "quantifier": "all observers, settings, messages and states", "why_tests_cant": "It compares runs with and without other observers, for all settings; a test has one observer.", "anchors": ["foronoi/observers/voronoi_observer.py:VoronoiObserver.update", "foronoi/visualization/visualizer.py:Presets"]}
{"id": "C64", "title": "Events, arcs and given parts are drawn where they are", "statement": "plot_event draws, for the last event handled or a pending one, the circle through its three sites whose lowest point is the place of the event; for the event just handled its middle is a vertex of the diagram and no site is nearer to it. For site events it draws nothing. plot_arcs draws the parabola of every site on the beach line (a vertical line for a site on the sweep line) and no other. plot_edges, plot_vertices and plot_sites with a non-empty list draw what is in the list; with an empty one they draw everything. The canvas is the smallest box around the polygon, or around a circle of twice the radius, with the given margin.", "quantifier": "all lists of distinct sites, all reachable states between events, all sweep line arguments, all lists of edges, vertices and sites, all polygons and circles", "why_tests_cant": "The circle and the arcs depend on the whole history of the sweep; tests compare no pictures.", "anchors": ["foronoi/visualization/visualizer.py:Visualizer.plot_event", "foronoi/visualization/visualizer.py:Visualizer._plot_circle", "foronoi/visualization/visualizer.py:Visualizer.plot_arcs", "foronoi/visualization/visualizer.py:Visualizer._canvas_size", "foronoi/visualization/visualizer.py:Visualizer.plot_edges"]}
{"id": "C65", "title": "Walking over the finished diagram", "statement": "In the finished diagram every half-edge that borders a cell has a next and a prev in the same cell; next starts at the edge's target, prev ends at its origin, and the two undo each other. At every vertex inside the polygon the connected edges are three that start there, and edge.twin.next steps through them counterclockwise and comes back after three steps. The documentation's claim that edge.twin.next is the previous edge (edge.prev) is false for every edge between two cells. The target of a half-edge is where its twin starts, None without a twin, and the list of vertices has exactly the corners of the polygon, the points of the outline with two nearest sites and the Voronoi vertices inside as its positions.", "quantifier": "all regular inputs (distinct sites inside a convex polygon, no Voronoi vertex on the outline, low finishing line), all half-edges and all vertices of the result", "why_tests_cant": "The links are set by many site and circle events, by clipping and by closing the border; tests look at a few diagrams and mostly at areas.", "anchors": ["foronoi/graph/half_edge.py:HalfEdge.target", "foronoi/graph/half_edge.py:HalfEdge.set_next", "foronoi/graph/polygon.py:Polygon.finish_polygon", "foronoi/graph/vertex.py:Vertex.connected_edges", "examples/quickstart.py"]}
{"id": "C66", "title": "A figure contains what the settings ask for", "statement": "A VoronoiObserver's figure at a notification consists of exactly the parts whose keyword is on: a given value decides (a number is on if it is not zero), otherwise edges, vertices and sites are on, while the sweep runs also the outline, the circle event, the beach line and the sweep line, and after the sweep also the outline. Labels, arcs and arc labels are in it only if asked for. A step shows the sweep line across the canvas at the height of the event, all sites, the Voronoi edges up to the beach line and the beach line itself; the result shows the outline, the Voronoi edges, the vertices and the sites. A DebugObserver reports exactly the messages that no other observer shows anything for.", "quantifier": "all runs over distinct sites, all notifications of the run, all settings of the observer (shared settings not yet changed by another observer), all orders of the set of arcs", "why_tests_cant": "There are 15 keywords with defaults that depend on the message, so tens of thousands of combinations, in every state of every run.", "anchors": ["foronoi/visualization/visualizer.py:Visualizer.plot_all", "foronoi/visualization/visualizer.py:Presets", "foronoi/observers/voronoi_observer.py:VoronoiObserver.update", "foronoi/observers/debug_observer.py:DebugObserver.update"]}
{"id": "C67", "title": "Cells depend on the places of the sites only: any order, and any move, turn, mirror image or scale", "statement": "The half-edges of positive length returned by borders() of a site are exactly the sides of its cell, each once, in terms of sites and corners alone, and area() is the sum of the triangles from the site to these sides. So running the algorithm on the same sites in another order gives every site the same sides and the same area; and running it on sites and polygon mapped by any map that scales all distances by one factor gives the mapped sides (turned around if the map mirrors), areas multiplied by the square of the factor, and drawings of the mapped vertices and lines.", "quantifier": "all regular inputs (distinct sites strictly inside a convex polygon, no Voronoi vertex on the outline, no corner with two nearest sites, low finishing line) and all distance-scaling maps whose image input is also regular; all permutations of the sites and of the corners", "why_tests_cant": "The sweep visits events in an order that depends on the y axis, and the tree, queue and half-edge numbering change completely under a permutation or a turn; equality must hold for every input and every map.", "anchors": ["foronoi/algorithm.py:Algorithm.create_diagram", "foronoi/graph/point.py:Point.borders", "foronoi/graph/point.py:Point.area", "foronoi/visualization/visualizer.py:Visualizer.plot_edges"]}
{"id": "C68", "title": "Queries on a cell while the diagram is under construction", "statement": "At every moment between two events of the sweep, and for every site, borders() returns after finitely many steps a list of distinct half-edges that border that site's cell, each the next of the one before it, ending at one that has no next yet or whose next is the first; once two sites have been handled it is not empty for a handled site. vertices() returns the vertices those half-edges start at, all of them vertices of the diagram, and area() returns a number instead of raising. (The documentation also promises None while borders are missing: that is refuted, a part of the borders is returned.)", "quantifier": "all inputs in lawful arithmetic, all moments between two events, all sites", "why_tests_cant": "Observers may query a cell after any event of any run; the walk along next would loop for ever on one wrong link.", "anchors": ["foronoi/graph/point.py:Point.borders", "foronoi/graph/point.py:Point.vertices", "foronoi/graph/point.py:Point.area"]}
{"id": "C69", "title": "The structures stay linear in the number of sites", "statement": "After every event, with h sites handled and V vertices found, there are exactly h + V - 1 edges and h + V handled events, at most 2h - 1 - V arcs on the beach line (and at least two from the second site on), and at most n + h + V events in the queue, cancelled ones included. When the loop is through n >= 2 sites there are at most 2n - 3 vertices, 3n - 4 edges and 3n - 3 handled events. The finished diagram in a polygon with m corners has at most 9n + m edges and 8n + m vertices.", "quantifier": "all inputs in lawful arithmetic, all moments between two events, all polygons", "why_tests_cant": "A bound on memory for inputs of every size and every interleaving of site and circle events.", "anchors": ["foronoi/algorithm.py:Algorithm.create_diagram", "foronoi/algorithm.py:Algorithm.handle_site_event", "foronoi/algorithm.py:Algorithm.handle_circle_event", "foronoi/graph/polygon.py:Polygon.finish_edges", "foronoi/graph/polygon.py:Polygon.finish_polygon"]}
{"id": "C70", "title": "Clipping with a bounding circle", "statement": "BoundingCircle.inside holds exactly for the points nearer to the centre than the radius. For an edge with two different ends, one of which may be infinitely high, the loop of BoundingCircle.finish_edges raises only if the whole line of the edge misses the disk; otherwise either nothing of the edge is in the disk, and it is neither changed nor listed, or afterwards it runs exactly over its points in the disk: an end inside stays, another becomes a new vertex on the circle, and no other edge is touched. After a sweep over distinct sites inside the circle, with y = -1000 low below the disk and the Voronoi vertices and no point with four nearest sites, finish_edges returns, two sites are nearest to a point of the disk exactly if a listed edge between the two passes through it, and the vertices of the outline are at exactly the points of the circle with two nearest sites, in clockwise order of their directions from the centre. (With four sites nearest to one point outside the circle this is refuted: the edge of length zero there is kept and yields vertices at places that are on no Voronoi edge.)", "quantifier": "all circles, all edges, all sites inside the circle, exact arithmetic", "why_tests_cant": "A cut can go wrong for one slope or one position of the two ends, of all lines and circles.", "anchors": ["foronoi/contrib/bounding_circle.py:BoundingCircle.inside", "foronoi/contrib/bounding_circle.py:BoundingCircle.finish_edges", "foronoi/contrib/bounding_circle.py:BoundingCircle.trim_edge", "foronoi/contrib/bounding_circle.py:BoundingCircle.cut_line"]}
{"id": "C71", "title": "Neighbouring sites", "statement": "After create_diagram, going around site p with borders() and asking each half-edge of positive length for twin.incident_point gives exactly the sites q whose Voronoi cells share a border with that of p in the polygon (two different points of the polygon have both among their nearest sites); each neighbour is met once, the relation is symmetric, the site nearest to p is among its neighbours, and going from neighbour to neighbour reaches every site from every other. Two sites with no third site in the disk over the segment between them are neighbours, and so are two sites of different groups, however the sites are divided in two groups, that are as near to each other as any two sites of different groups; hence the neighbours contain every edge of a shortest tree connecting the sites. Two sites are neighbours if and only if some circle with its centre inside the polygon passes through both and has all other sites strictly outside.", "quantifier": "all lists of distinct sites strictly inside a convex polygon, in general position with the outline, all pairs of sites", "why_tests_cant": "Adjacency is a property of every pair of sites of every configuration, and connectedness one of the whole diagram.", "anchors": ["foronoi/graph/point.py:Point.borders", "foronoi/graph/half_edge.py:HalfEdge.twin", "foronoi/algorithm.py:Algorithm.create_diagram"]}
{"id": "C72", "title": "Adding a site", "statement": "When one site is added and the diagram made again in the same polygon, the cell around which borders() of a former site goes is a part of the former cell, and is the same cell if the former site is no neighbour of the new one. area() of a former site is never larger than before; it is smaller exactly if the site is a neighbour of the new one, and what all former sites lose is together area() of the new one.", "quantifier": "all lists of distinct sites strictly inside a convex polygon and all further sites, in general position with the outline", "why_tests_cant": "Two runs over arbitrary inputs are compared.", "anchors": ["foronoi/graph/point.py:Point.borders", "foronoi/algorithm.py:Algorithm.create_diagram", "foronoi/graph/point.py:Point.area"]}
{"id": "C73", "title": "The places farthest from the sites are vertices", "statement": "After create_diagram, every point of a cell is one of the points listed by vertices() of its site, or one of these is farther from the site. Some vertex of the diagram is as far from its nearest site as any point of the polygon is from its own nearest site, and every point of the polygon that far is a vertex of the diagram: searching the vertices finds the largest empty circle centred in the polygon.", "quantifier": "all lists of distinct sites strictly inside a convex polygon, in general position with the outline, all points of the polygon", "why_tests_cant": "The maximum is over all points of the plane inside the polygon.", "anchors": ["foronoi/graph/point.py:Point.vertices", "foronoi/algorithm.py:Algorithm.create_diagram"]}
{"id": "C74", "title": "How many neighbours a site has", "statement": "After create_diagram with n >= 2 sites there are at most 6 n - 8 pairs of a site and a neighbour of it found by walking around its cell with borders() (equally: at most that many ordered pairs of Voronoi cells share a border in the polygon), so a site has fewer than six neighbours on average, and some site has at most five.", "quantifier": "all lists of distinct sites strictly inside a convex polygon, in general position with the outline", "why_tests_cant": "A bound for every number of sites and every configuration.", "anchors": ["foronoi/graph/point.py:Point.borders", "foronoi/algorithm.py:Algorithm.create_diagram"]}
{"id": "C75", "title": "Rounded areas", "statement": "area(digits) returns exactly when area() returns, and raises what area() raises otherwise. Its result is a multiple of 10^-digits; no other multiple is closer to area(), so it is off by at most half of 10^-digits, and half-way between two multiples it is the even one. Rounding keeps the order of the areas. The rounded areas of the n cells of a diagram add up to the area of the polygon up to n halves of 10^-digits.", "quantifier": "all states, sites and numbers of digits (also negative); the sum: all lists of distinct sites strictly inside a convex polygon, in general position with the outline", "why_tests_cant": "The bound on the sum is over every number of sites, every configuration and every number of digits.", "anchors": ["foronoi/graph/point.py:Point.area"]}
{"id": "C76", "title": "Finding the nearest site by going from neighbour to neighbour", "statement": "After create_diagram, a point of the polygon has site p among its nearest sites if and only if no neighbour of p (found by walking around the cell of p) is nearer to it. Hence going from any site to a neighbour nearer to the point, as long as there is one, ends at a nearest site, in fewer steps than there are sites. The second nearest site to a point is a neighbour of the nearest one. Making the diagram again without any of the sites that are no neighbours of p, in any order, leaves the cell of p as it is.", "quantifier": "all lists of distinct sites strictly inside a convex polygon, in general position with the outline, all points of the polygon, all starts and walks", "why_tests_cant": "All query points and all walks over all diagrams are meant.", "anchors": ["foronoi/graph/point.py:Point.borders", "foronoi/graph/half_edge.py:HalfEdge.twin", "foronoi/algorithm.py:Algorithm.create_diagram"]}
{"id": "C77", "title": "The cells divide the polygon", "statement": "After create_diagram, a point is in the polygon if and only if it is in the cell around which borders() of some site goes. A point strictly on the right of all half-edges of positive length listed by borders() of a site is in no other cell; these are the points strictly inside the polygon with no other nearest site, and the site is one of them.", "quantifier": "all lists of distinct sites strictly inside a convex polygon, in general position with its outline, and all points of the plane", "why_tests_cant": "It is about every point of the plane and every list of sites.", "anchors": ["foronoi/graph/point.py:Point.borders", "foronoi/algorithm.py:Algorithm.create_diagram"]}
{"id": "C78", "title": "The polygon does nothing but cut the cells", "statement": "When the diagram of the same sites is made in two polygons, a point of both polygons is in the cell of a site in one diagram if and only if it is in the other, and a point strictly inside both is a vertex of one if and only if it is a vertex of the other. If one polygon contains the other, neighbours in the inner one are neighbours in the outer one, and a cell that does not reach the outline of the inner one is the same cell in both, with the same area() and the same neighbours.", "quantifier": "all lists of distinct sites and all pairs of convex polygons with the sites strictly inside, in general position with the outlines", "why_tests_cant": "Two runs over arbitrary sites and polygons are compared, at every point of the plane.", "anchors": ["foronoi/graph/point.py:Point.borders", "foronoi/graph/point.py:Point.area", "foronoi/graph/polygon.py:Polygon.finish_edges", "foronoi/graph/polygon.py:Polygon.finish_polygon", "foronoi/algorithm.py:Algorithm.create_diagram"]}
{"id": "C79", "title": "What a printed half-edge tells", "statement": "In a finished diagram str() of a half-edge listed by borders() of a site never fails. It names that site and, after a slash, the site on the other side, and every point of the half-edge is nearest to both; it shows a dash after the slash only for a half-edge that lies on the outline of the polygon. Two half-edges of positive length between cells are never printed the same. Every listed vertex is printed with its position. (Half-edges on the outline are printed alike: all four of a single site in a square are \"P0/-\".)", "quantifier": "all lists of distinct sites strictly inside a convex polygon, in general position with respect to it, and every listed half-edge and vertex of the finished diagram", "why_tests_cant": "The text depends on which cells touch and on the order in which the sweep names the sites; a test sees the texts of a few diagrams only, not that no two sides of any diagram get the same text.", "anchors": ["foronoi/graph/half_edge.py:HalfEdge.__repr__", "foronoi/graph/point.py:Point.__repr__", "foronoi/graph/vertex.py:Vertex.__repr__", "foronoi/algorithm.py:Algorithm.create_diagram"]}
{"id": "C80", "title": "Nothing of the finished diagram is outside of the picture", "statement": "The figure that show() displays or get_canvas() returns covers the polygon with a margin of canvas_offset on each side: every point within that margin of a point of the polygon is within the limits of both axes. So for a canvas_offset that is not negative all lines, labels, vertices, sites and pointers of the finished diagram that plot_all draws, whatever its arguments, are in the picture. With a negative canvas_offset a corner of the polygon is cut off.", "quantifier": "all convex polygons and offsets; for the drawing, all lists of distinct sites strictly inside the polygon in general position, and all arguments of plot_all", "why_tests_cant": "Whether every drawn coordinate is within the limits depends on all edges and vertices the sweep and the clipping produce; an image test checks a few figures.", "anchors": ["foronoi/visualization/visualizer.py:Visualizer._set_limits", "foronoi/visualization/visualizer.py:Visualizer._canvas_size", "foronoi/visualization/visualizer.py:Visualizer.show", "foronoi/visualization/visualizer.py:Visualizer.get_canvas", "foronoi/visualization/visualizer.py:Visualizer.plot_all"]}
{"id": "C81", "title": "Sites at the rim have cells at the outline", "statement": "If in some direction no neighbour of a site is further than the site itself, in particular if the site is on the rim of the convex hull of the sites, then borders() of the site contains a half-edge of positive length on the outline of the polygon, whose twin has no site, and the half-line from the site in that direction leaves the polygon at a point whose only nearest site it is. So a site whose cell does not reach the outline has a neighbour that is further than itself in every direction.", "quantifier": "all lists of distinct sites strictly inside a convex polygon in general position, all sites of it and all directions", "why_tests_cant": "It is a statement about all directions and about every configuration of sites; tests look at the cells of a few.", "anchors": ["foronoi/algorithm.py:Algorithm.create_diagram", "foronoi/graph/point.py:Point.borders", "foronoi/graph/polygon.py:Polygon.finish_polygon", "foronoi/graph/half_edge.py:HalfEdge.twin"]}
