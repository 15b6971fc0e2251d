{"id": "C01", "title": "Undo then redo restores the document", "statement": "If every recorded action's undo part reverses its do part, then for every history of undoable calls, undo() and redo() calls, pressing undo n times and then redo n times (n up to undocount()) gives back exactly the same document, the same undo list and the same redo list; undoing everything gives back the document on which recording started.", "quantifier": "all documents, all histories of actions, undos and redos, all n", "why_tests_cant": "a test runs a handful of histories; the law is about every interleaving of do/undo/redo", "anchors": ["src/bgem/undo.py: Stack.undo, Stack.redo, Stack.append, _Action.do, _Action.undo, undoable"]}
{"id": "C02", "title": "A group is one undo step", "statement": "Actions executed inside `with stack.group(..)` that ends normally form one entry: one undo() reverts all of them in reverse order, one redo() executes all of them in order, earlier entries are untouched, and the group's actions are not separately undoable.", "quantifier": "all documents, all non-nested groups of any length (also empty), all earlier histories", "why_tests_cant": "groups of arbitrary length and content", "anchors": ["src/bgem/undo.py: _Group, Stack.group, group"]}
{"id": "C03", "title": "Exceptions leave the undo stack usable", "statement": "An undoable call that raises in its do part records nothing. A raising undo() or redo() empties both lists, re-enables recording and re-raises. After any exception later actions are still recorded.", "quantifier": "all histories and all exception points", "why_tests_cant": "the exception may come at any action of any history; the group-with-exception case needs a history after the failure", "anchors": ["src/bgem/undo.py: undoable.inner, Stack.undo, Stack.redo, _Group.__exit__, Stack.clear"]}
{"id": "C04", "title": "A new action discards the redo list and undo/redo never record themselves", "statement": "After a recorded action canredo() is False; during undo() and redo() no nested undoable call changes the undo list or the redo list other than moving the one entry; canundo/undocount/undotext/redotext agree with the lists.", "quantifier": "all histories, all actions whose bodies themselves call undoable functions", "why_tests_cant": "re-entrancy depends on what every action does inside", "anchors": ["src/bgem/undo.py: Stack.append, Stack._pausereceiver, Stack.undotext, Stack.redotext, Stack.canundo, Stack.canredo"]}
{"id": "C05", "title": "haschanged is truthful", "statement": "haschanged() returns False only if the document equals the document at the last savepoint().", "quantifier": "all histories after a savepoint", "why_tests_cant": "needs the history savepoint; undo; other action, and a proof for the histories where it does hold", "anchors": ["src/bgem/undo.py: Stack.savepoint, Stack.haschanged"]}
{"id": "C06", "title": "redocount counts the redo list", "statement": "redocount() returns the number of actions that redo() can replay.", "quantifier": "all histories", "why_tests_cant": "holds on symmetric histories only, a single test does not show which", "anchors": ["src/bgem/undo.py: Stack.redocount"]}
{"id": "C07", "title": "Live ids are unique and never reissued while live", "statement": "In every history of append/remove/get on an id map, the id given by append is not the id of any live object, ids of live objects are pairwise different, a lookup returns the object that was stored, other objects keep their ids, and removing an id that is not live raises without change.", "quantifier": "all histories of append and remove, all objects", "why_tests_cant": "id reuse makes the statement a property of the whole history", "anchors": ["src/bgem/polygons/idmap.py: IdMap.append, IdMap.remove, IdMap.get_new_id"]}
{"id": "C08", "title": "Id allocation is undone exactly by reversed removal", "statement": "Removing the objects created by any sequence of appends in reverse order brings the id map to a state in which the same sequence of appends (and any further history) issues the same ids again; all ids ever issued are below the maximal number of simultaneously live objects.", "quantifier": "all histories followed by append^n; remove^n (reversed)", "why_tests_cant": "undo/redo in the polygon editor silently relies on this for every history", "anchors": ["src/bgem/polygons/idmap.py: IdMap.append, IdMap.remove"]}
{"id": "C09", "title": "Box intersection query is exact", "statement": "After any history of add_object/rm_object, intersect_candidates(box) returns, in increasing order and without repetition, exactly the ids of live objects whose closed box meets the closed query box.", "quantifier": "all histories, all boxes with finite coordinates below the sentinel", "why_tests_cant": "all boxes and all histories including table growth and id reuse", "anchors": ["src/bgem/polygons/aabb_lookup.py: AABB_Lookup.add_object, rm_object, intersect_candidates, make_aabb"]}
{"id": "C10", "title": "Nearest object is never missed by the closest-candidates query", "statement": "After any history, for every point and every placement of objects inside their live boxes, at least one object of minimal Euclidean distance to the point is among closest_candidates(point), and every object strictly nearer than all candidates does not exist.", "quantifier": "all histories, all query points, all objects contained in their boxes, boxes of positive size", "why_tests_cant": "mixes L-infinity box distances and Euclidean distances of arbitrary objects", "anchors": ["src/bgem/polygons/aabb_lookup.py: AABB_Lookup.closest_candidates"]}
{"id": "C11", "title": "closest_candidates returns only live ids", "statement": "closest_candidates never returns the id of an object that has been removed or was never added.", "quantifier": "all histories, all points", "why_tests_cant": "fails only after special removal histories", "anchors": ["src/bgem/polygons/aabb_lookup.py: AABB_Lookup.closest_candidates, rm_object", "src/bgem/polygons/polygons.py: PolygonDecomposition._snap_point"]}
{"id": "C12", "title": "Bounding box of a point set", "statement": "make_aabb(points, margin) contains every point, with the requested margin when it is positive, and is the smallest such box.", "quantifier": "all non-empty point lists, all margins", "why_tests_cant": "all inputs", "anchors": ["src/bgem/polygons/aabb_lookup.py: make_aabb"]}
{"id": "C13", "title": "Projection onto a segment is the nearest point", "statement": "seg_project_point returns a parameter t in [0,1] such that the point of the segment with parameter t is at least as near to the given point as any other point of the segment; it fails exactly for degenerate segments.", "quantifier": "all segments, all points", "why_tests_cant": "an optimisation statement over a continuum", "anchors": ["src/bgem/polygons/polygons.py: PolygonDecomposition.seg_project_point"]}
{"id": "C14", "title": "Segment intersection is sound and complete", "statement": "seg_intersection returns (t0,t1) only if the two segments' points with those parameters coincide and both parameters lie strictly inside (eps,1-eps); if two non-parallel segments have such a common point it is returned; otherwise (None,None).", "quantifier": "all pairs of segments", "why_tests_cant": "all geometric configurations including parallel, touching, disjoint", "anchors": ["src/bgem/polygons/polygons.py: PolygonDecomposition.seg_intersection"]}
{"id": "C15", "title": "Ray crossing test", "statement": "is_on_x_line(seg, p) is true exactly when the horizontal ray from p to the right meets the segment under the half-open rule (lower end included, upper end excluded); for points not on the segment the answer does not depend on the orientation of the segment.", "quantifier": "all segments and all points", "why_tests_cant": "all positions, including the degenerate ones on the segment itself", "anchors": ["src/bgem/polygons/segment.py: Segment.is_on_x_line"]}
{"id": "C16", "title": "Point-in-wire parity", "statement": "For every closed wire, contains_point is False for each point beyond the wire's bounding box, is unchanged by dendrites (segments walked on both sides), by the order of segments and, for points on no segment, by reversing segments; it does not change when the point moves along a segment which does not meet the wire; for every convex polygon it agrees with the half-plane definition of the interior.", "quantifier": "all closed vertex sequences of any length, all points", "why_tests_cant": "parity of crossings of arbitrary closed walks", "anchors": ["src/bgem/polygons/polygon.py: Wire.contains_point", "src/bgem/polygons/segment.py: Segment.is_on_x_line"]}
{"id": "C17", "title": "Half-edge structure and wires stay consistent", "statement": "After every history of add_free_point, remove_free_point, new_segment, delete_segment, split_segment at a free point, join_segments of two segments of which the second goes on where the first ends (their far ends not joined yet) and Point.move that does not raise, the next-links form a permutation of segment sides with matching vertices, two segment sides carry the same wire exactly when they are on the same boundary cycle, and Wire.segments lists the sides of its wire exactly once. The histories are those in which contains_wire is answered soundly for the two sides of a new segment, and in which the deletion of an exposed segment (a bridge on the outer wire of a polygon, or a lone segment around other wires) leaves the wire tree whole; without the last condition see C23.", "quantifier": "all histories, all coordinates, all answers of the angle predicate and all sound answers of the containment predicates", "why_tests_cant": "the invariant must survive every interleaving of four insertion cases and four deletion cases", "anchors": ["src/bgem/polygons/decomp.py: Decomposition.new_segment, delete_segment, split_segment, join_segments, _new_wire, _wire_add_dendrite, _join_wires, _split_poly, _rm_wire, _wire_rm_dendrite, _split_wire, _join_poly", "src/bgem/polygons/segment.py: Segment.connect_vtx, disconnect_vtx"]}
{"id": "C18", "title": "All segments at a point are enumerated", "statement": "After every history of C17, walking around a point yields each segment incident with the point exactly once; a point is free exactly when no segment is incident with it; a free point belongs to the free points of exactly one polygon, another point to those of none.", "quantifier": "all histories", "why_tests_cant": "depends on the rotation order built by every earlier operation", "anchors": ["src/bgem/polygons/point.py: Point.segments, join_segment, rm_segment, insert_vector", "src/bgem/polygons/decomp.py: Decomposition.add_free_point, remove_free_point"]}
{"id": "C19", "title": "No duplicate segments", "statement": "After every history of C17: new_segment(a,b) on a pair of points (farther apart than the tolerance) already joined, in either orientation, returns the existing segment and changes nothing but resets the change report; there is never more than one segment for an unordered pair of points, and the point-pair index lists exactly the live segments. join_segments of segments whose far ends are joined already breaks this: it makes a second segment between the two points.", "quantifier": "all histories, all pairs", "why_tests_cant": "histories with splits, joins and deletions in any order", "anchors": ["src/bgem/polygons/decomp.py: Decomposition.new_segment, split_segment, join_segments, delete_segment, pt_to_seg"]}
{"id": "C20", "title": "Euler relation", "statement": "After every history of C17, 2*(number of polygons - 1) = segments + boundary wires - points with a segment (boundary wires are the wires but the root).", "quantifier": "all histories", "why_tests_cant": "counts after arbitrary histories", "anchors": ["src/bgem/polygons/decomp.py: Decomposition"]}
{"id": "C21", "title": "Polygon change report is exact", "statement": "After each new_segment or delete_segment, in any state that a history of C17 reaches, the reported change (none / shape / add / remove / split / join with ids) agrees with the difference of the polygon set before and after, and the two ids of an add, remove, split or join are those of the polygons on the two sides of the segment; after a shape change both sides have one polygon (which id is then named: C117).", "quantifier": "all states and all operations", "why_tests_cant": "all states", "anchors": ["src/bgem/polygons/decomp.py: Decomposition.last_polygon_change, get_last_polygon_changes"]}
{"id": "C22", "title": "Deleting the segment just inserted, joining the segment just split restores the decomposition", "statement": "In any state that a history of C17 reaches, new_segment of points not yet joined followed by delete_segment of the result, when both return, gives back the same points, segments, vectors, links, index, polygon ids, polygons on the sides, free points and the same wires up to their ids. split_segment at a free point followed by join_segments gives back the same but for the vector of the segment, which need not be the same (C24).", "quantifier": "all states", "why_tests_cant": "all states", "anchors": ["src/bgem/polygons/decomp.py: Decomposition.new_segment, delete_segment, split_segment, join_segments"]}
{"id": "C23", "title": "Wire tree and polygons consistent", "statement": "After every history of C17 check_consistency() succeeds: every wire is the outer wire of its polygon or a child of it, parent and child links agree, and every wire hangs below the root. Beyond these histories it does not: deletion of a bridge on an outer wire can make a wire its own parent, after which a later deletion raises; join_segments of two segments that point at each other leaves wires with the wrong side.", "quantifier": "all histories", "why_tests_cant": "needs the history that hits the defective branch of segment deletion", "anchors": ["src/bgem/polygons/decomp.py: Decomposition.check_consistency, _split_wire, _split_poly, _join_poly, _join_wires", "src/bgem/polygons/polygon.py: Wire.set_parent"]}
{"id": "C24", "title": "Segment vector equals the difference of its end points", "statement": "After every history of C17 without join_segments, seg.vector equals end point minus start point for every segment. After join_segments it need not.", "quantifier": "all histories", "why_tests_cant": "stale cache after join (undo of a split)", "anchors": ["src/bgem/polygons/decomp.py: Decomposition.join_segments, split_segment", "src/bgem/polygons/segment.py: Segment.vector", "src/bgem/polygons/point.py: Point.move"]}
{"id": "C25", "title": "Snapping boxes cover the geometry", "statement": "After every history of _add_point, _add_segment, _rm_point, _rm_segment, _split_segment at a free point on the segment, _join_segments where the box of the first segment reaches to the far end of the second (as when a split is undone) and undo(), every point and segment lies inside its box in the lookup tables, with the tolerance around. A box query never misses a segment that passes through the box or within the tolerance of it, and returns ids of existing segments only. Other calls of _join_segments, move_points, and _rm_point of a point with segments (which raises after the box is gone) break this.", "quantifier": "all histories of the polygon editor", "why_tests_cant": "histories with move and join", "anchors": ["src/bgem/polygons/polygons.py: _add_point, _add_segment, _split_segment, _join_segments, move_points, _rm_point, _rm_segment"]}
{"id": "C26", "title": "Undo of polygon edits restores the decomposition", "statement": "undo() after _add_point or _rm_point returns and gives back the decomposition with all ids. After _add_segment of points not joined before and after _join_segments it gives back the same drawing, after _split_segment all but the vector of the segment, after _rm_segment the same points, segments, ids, vectors and index. After _add_segment of an existing segment undo deletes that segment, and undo of merge_points brings segments back between the wrong points.", "quantifier": "all states that histories of C25 reach, all primitives", "why_tests_cant": "fails only on particular states", "anchors": ["src/bgem/polygons/polygons.py: _add_segment, _rm_segment, _split_segment, _join_segments, _add_point, _rm_point, merge_points"]}
{"id": "C27", "title": "Knot packing round trip", "statement": "make_from_packed_knots(degree, pack_knots()) reproduces the knot vector; packing a vector made from distinct consecutive values with positive multiplicities reproduces the pairs; multiplicities add up to the number of knots and check_knots of the BREP writer accepts the result.", "quantifier": "all knot vectors, all degrees", "why_tests_cant": "all vectors", "anchors": ["src/bgem/bspline/bspline.py: SplineBasis.make_from_packed_knots, pack_knots", "src/bgem/bspline/brep_writer.py: check_knots"]}
{"id": "C28", "title": "Knot interval search", "statement": "For t in the domain find_knot_interval(t) returns an index I in [0,n_intervals) with knots[deg+I] <= t < knots[deg+I+1] (closed at the right end of the domain); make_equidistant yields a valid increasing knot vector with the requested number of intervals. check returns a parameter of the domain within the tolerance of t or raises.", "quantifier": "all clamped knot vectors, all degrees, all t", "why_tests_cant": "binary search over arbitrary vectors with repeated knots", "anchors": ["src/bgem/bspline/bspline.py: SplineBasis.find_knot_interval, make_equidistant, __init__"]}
{"id": "C29", "title": "Basis functions: non-negativity, local support, partition of unity", "statement": "For t in the domain all basis values are >= 0, only those with index in [I,I+deg] may be non-zero, and they sum to 1.", "quantifier": "all degrees, all clamped non-decreasing knot vectors, all t of the domain including both ends", "why_tests_cant": "identity over the reals for every degree and knot vector", "anchors": ["src/bgem/bspline/bspline.py: SplineBasis._basis, eval, eval_vector, fn_supp"]}
{"id": "C30", "title": "Quadratic fast path equals the general recursion", "statement": "For degree 2 eval_base_vector and the fast derivative vector agree with eval / eval_diff for each t of the interval.", "quantifier": "all clamped degree-2 knot vectors, all t whose knot interval is not empty", "why_tests_cant": "identity of rational functions", "anchors": ["src/bgem/bspline/bspline.py: SplineBasis._eval_vector_deg_2, _eval_diff_vector_deg_2, _basis"]}
{"id": "C31", "title": "eval_diff is the derivative of eval", "statement": "At each t inside the domain whose knot multiplicity is below the degree, eval_diff(i,t) is the two-sided derivative of eval(i,.); at every t before the end it is the right derivative and at the end the left derivative; derivatives of all basis functions sum to zero on the whole domain.", "quantifier": "all degrees >= 1, all clamped knot vectors with inner multiplicities at most the degree, all i, t", "why_tests_cant": "limit statement", "anchors": ["src/bgem/bspline/bspline.py: SplineBasis.eval_diff, _basis"]}
{"id": "C32", "title": "Linear poles reproduce the identity", "statement": "sum_i make_linear_poles()[i]*eval(i,t) = t - domain[0] on the domain; the documented f(t) = t therefore holds exactly for domains starting at 0.", "quantifier": "all degrees >= 1, knot vectors, t", "why_tests_cant": "for domains not starting at 0 the statement fails; tests use [0,1]", "anchors": ["src/bgem/bspline/bspline.py: SplineBasis.make_linear_poles"]}
{"id": "C33", "title": "Curves and surfaces stay inside the box of their poles and interpolate their end poles", "statement": "curve.eval(t) lies in aabb() for each t of the domain (also for rational curves with positive weights), eval at the domain ends gives the first and last pole when the first interval is not empty; the same for surfaces and their corner poles; evaluation commutes with affine maps of the poles.", "quantifier": "all degrees, knots, poles, parameters", "why_tests_cant": "continuum of parameters", "anchors": ["src/bgem/bspline/bspline.py: Curve.eval, Curve.aabb, Surface.eval, Surface.aabb"]}
{"id": "C34", "title": "Patch numbering is a bijection", "statement": "patch_pos2id and patch_id2pos are mutually inverse between patch positions and 0..n_patches-1.", "quantifier": "all surface sizes", "why_tests_cant": "all sizes", "anchors": ["src/bgem/bspline/bspline.py: Surface.patch_pos2id, patch_id2pos"]}
{"id": "C35", "title": "Z-surface coordinate maps are mutually inverse and transforms act about the centre", "statement": "For every surface reached by any sequence of constructor, get_copy, transform and apply_z_transform calls: uv_to_xy(xy_to_uv(x)) = x, and xy_to_uv(uv_to_xy(p)) = p when the surface has an inverse map (a parallelogram). Three points not on a line are always accepted. After any sequence of calls the surface maps p to A(x-c)+c+b, where x is the image of p when the surface was constructed, c the image of (1/2,1/2), and (A,b) the last xy transform given; heights are the spline heights scaled about the height at (1/2,1/2) and shifted by the last z transform since the last apply_z_transform. Transforms with a regular matrix do not fail.", "quantifier": "all quads, affine maps, points", "why_tests_cant": "all matrices", "anchors": ["src/bgem/bspline/bspline.py: Z_Surface.uv_to_xy, xy_to_uv, transform, eval_array, z_eval_array"]}
{"id": "C36", "title": "Grid surface height agrees with its spline", "statement": "After any sequence of transforms of a grid surface, the height of eval_array minus the height of z_eval_array is (1-s)*zc on the whole unit square, where s is the z scale in force and zc the original height at (1/2,1/2). So they agree if no z scale is set, and differ (refuted claim) for a scale other than 1 with zc != 0. At the grid nodes z_eval_array returns s*data+t.", "quantifier": "all grids, all transforms, all uv", "why_tests_cant": "wrong only for scaled surfaces", "anchors": ["src/bgem/bspline/bspline.py: GridSurface.z_eval_array, eval_array, Z_Surface._z_mat"]}
{"id": "C37", "title": "Reported bounding box of a transformed surface is a box containing it", "statement": "After any sequence of calls, aabb() has min <= max and contains every surface point with u, v in the spline domain and in [0,1], provided the z scale in force is not negative and a fourth quad point that is within numpy tolerance of the parallelogram is exactly on it. With a negative scale the z interval is turned over and contains no surface point (refuted claim).", "quantifier": "all surfaces and transforms", "why_tests_cant": "negative scale", "anchors": ["src/bgem/bspline/bspline.py: Z_Surface.aabb"]}
{"id": "C38", "title": "A copy is independent of the original", "statement": "After copy = s.get_copy(): nothing done to other surfaces, including the copy, changes what s evaluates to or its aabb; heights of the copy do not depend on later calls on s; once the copy got its own xy transform nothing done to others changes it. Until then its xy map is that of s (bound methods are shared), so transforming s moves the copy (refuted claim).", "quantifier": "all surfaces, all transforms", "why_tests_cant": "aliasing of bound methods", "anchors": ["src/bgem/bspline/bspline.py: Z_Surface.get_copy, transform"]}
{"id": "C39", "title": "Line, plane and bilinear constructors reproduce the affine/bilinear map", "statement": "For float coordinates and overhang o >= 0, on the whole domain [-o,1+o]: line(v0,v1)(t) = v0+t(v1-v0); plane_surface(v0,v1,v2)(u,v) = v0+u(v1-v0)+v(v2-v0); bilinear_surface(u,v) is the bilinear map of its corners minus o^2(1-2u)(1-2v)/(1+2o)^2 times the twist v0-v1+v2-v3, so it is the bilinear map if o = 0 or the corners form a parallelogram. The records of brep_writer.Approx (line_2d, line_3d, plane, bilinear) describe the same maps on [0,1], and the parameters returned by Approx.plane are those of the given points. Refuted: exactness for twisted corners with an overhang, integer coordinates with an overhang (exception), negative overhang, calling Approx.plane twice with one list.", "quantifier": "all vertices, parameters, overhangs", "why_tests_cant": "identity over a continuum", "anchors": ["src/bgem/bspline/bspline_approx.py: line, plane_surface, bilinear_surface", "src/bgem/bspline/brep_writer.py: Approx.plane, Approx.bilinear, Approx._line"]}
{"id": "C40", "title": "Written BREP references resolve", "statement": "For every sequence of successful calls of the public constructors, append, attach and write functions and every root and location none of whose objects has been numbered before and which contain no ComposedLocation with the identity as a factor: reading the file written by write_model sequentially (every reference must point to a record already read) gives exactly the tree of the root shape, with its geometry, locations, orientations and flags; each object the model depends on has exactly one record and nothing else is written; the call changes nothing but adding geometry to edges and to faces without surface; it succeeds whenever every edge without representation has two vertices and every face without surface has a closed boundary of 3 or 4 edges. Refuted: a ComposedLocation containing the identity writes a file that cannot be read.", "quantifier": "all shape graphs", "why_tests_cant": "all graphs with sharing", "anchors": ["src/bgem/bspline/brep_writer.py: write_model, Shape._dfs, Edge._dfs, Face._dfs, Vertex._dfs, ShapeRef._writeformat"]}
{"id": "C41", "title": "Writing the same model twice gives the same file", "statement": "A model made of objects not numbered before is written correctly whatever was written earlier. Refuted: write_model called twice on the same model writes the same records - the second file of any model has no records at all; repr(root) before the first write has the same effect; a second model sharing a vertex with a written one refers to a missing record.", "quantifier": "all shape graphs", "why_tests_cant": "state left behind by the first call", "anchors": ["src/bgem/bspline/brep_writer.py: write_model, Shape._dfs"]}
{"id": "C42", "title": "Closed flag of a wire", "statement": "After any history, a new Wire is flagged closed exactly when each vertex is used an even number of times by its edges, and a Face is accepted from edges exactly when their wire is closed. Refuted: the flag stays true after appending an edge that opens the wire.", "quantifier": "all edge lists, all histories of wire construction", "why_tests_cant": "all edge lists, hidden counters shared by wires", "anchors": ["src/bgem/bspline/brep_writer.py: Wire._set_closed"]}
{"id": "C43", "title": "ASCII mesh file round trip", "statement": "For every mesh whose physical names are single words, read() of the text written by write_ascii() into a new GmshIO succeeds and gives the same physical names, exactly the nodes with three coordinates and exactly the elements with at least three tags and nodes together, each with its type, tags, nodes and coordinates; so a mesh of such nodes and elements is read back unchanged. For names of any text on one line reading still succeeds and every name read is one word equal to a written name up to surrounding white space. Refuted: the round trip for every mesh - a point element with one tag and a name with a space are lost.", "quantifier": "all meshes (dicts of any size, any integers, any printable numbers)", "why_tests_cant": "string-level statement for all meshes; fails for elements with few columns and names with spaces", "anchors": ["src/bgem/gmsh/gmsh_io.py: GmshIO.read, write_ascii"]}
{"id": "C44", "title": "Element data round trip", "statement": "write_fields succeeds exactly for arrays with at least one row. For distinct element ids, at least as many ids as rows in each field, and distinct field names without quotes at their ends, read() of the text gives each field with time index 0 and time 0, with row k attached to the decimal digits of ids[k] and nothing else, and leaves nodes, elements, physical names and other fields unchanged. A text with a field of more rows than ids, or with two names differing only in quotes at their ends, cannot be read.", "quantifier": "all fields, ids, values and all meshes the file is read into", "why_tests_cant": "all sizes", "anchors": ["src/bgem/gmsh/gmsh_io.py: GmshIO.write_element_data, read_element_data_block, read_element_data_head"]}
{"id": "C45", "title": "Node-to-element index is exact under every edit", "statement": "After any sequence of add_element, add_node, move_node (of existing nodes), merge_node, remove_element, remove_node, reset_modified and heal_mesh, with exceptions caught by the caller, the index lists for each node exactly the elements that use it and the nodes of each element exist; an element id denotes one element as long as it is present and is never used again after its removal; without heal_mesh the same holds for node ids. Refuted without the restriction on move_node: moving a missing node creates it, and a later add_node overwrites it with its index entry.", "quantifier": "all meshes, all sequences of calls, all orders of walking through sets, all answers of the geometric tests", "why_tests_cant": "all sequences of edits", "anchors": ["src/bgem/gmsh/heal_mesh.py: HealMesh.make_node_to_el, add_element, move_node, merge_node, remove_node, remove_element"]}
{"id": "C46", "title": "Merging nodes", "statement": "merge_node(rm, target) of two different existing nodes of a mesh of elements with 1 to 4 nodes succeeds; it moves target to the average, removes rm, leaves no element using rm, keeps every element not using rm under its id, replaces each element using rm and not target by itself with target in place of rm unless an element of the same type with all these nodes is there, adds nothing else, and leaves no element with a repeated node if there was none. It raises if the nodes are equal or missing.", "quantifier": "all meshes reached by any sequence of calls, all node pairs, all orders of walking through sets", "why_tests_cant": "all meshes", "anchors": ["src/bgem/gmsh/heal_mesh.py: HealMesh.merge_node, common_elements, is_duplicate_el"]}
{"id": "C47", "title": "Healing terminates", "statement": "heal_mesh stops on every mesh, whatever the geometric tests answer: normally, at its limit or with an exception.", "quantifier": "all meshes reached by any sequence of calls, all answers of geometric tests, all limits", "why_tests_cant": "termination", "anchors": ["src/bgem/gmsh/heal_mesh.py: HealMesh.heal_mesh, _check_*"]}
{"id": "C48", "title": "Every element is checked after its last modification", "statement": "When heal_mesh, started with no element marked as modified, stops with nothing left to check, every element left either is among the elements reported as modified by the very last check, or was checked, the check changed nothing, and neither the element nor its nodes changed since. Refuted without the first alternative: elements modified by the last check are not checked.", "quantifier": "all meshes reached by any sequence of calls, all answers of geometric tests", "why_tests_cant": "depends on which element is last in the queue", "anchors": ["src/bgem/gmsh/heal_mesh.py: HealMesh.heal_mesh"]}
{"id": "C49", "title": "Quality histogram counts each element once", "statement": "If the qualities are numbers, quality_statistics puts each element of dimension > 1 into exactly one bin, the one whose bounds enclose the quality, and lists as bad exactly those with quality not above the tolerance. Refuted for all qualities: a triangle with two equal points has quality nan, is counted in the lowest bin and is not listed as bad.", "quantifier": "all meshes reached by any sequence of calls, all quality functions with values in the rational numbers", "why_tests_cant": "all values", "anchors": ["src/bgem/gmsh/heal_mesh.py: HealMesh.quality_statistics"]}
{"id": "C50", "title": "Splitting an element along an edge or in a face keeps the total volume", "statement": "Replacing a tetrahedron by the elements obtained by substituting a node p of the line of one of its edges (the plane of one of its faces) for each end of the edge (each vertex of the face), when these elements are new, leaves the other elements and keeps the total signed volume; for a triangle and p between the ends of the edge the total area.", "quantifier": "all meshes reached by any sequence of calls, all tetrahedra and triangles, all p", "why_tests_cant": "polynomial identity over a continuum", "anchors": ["src/bgem/gmsh/heal_mesh.py: HealMesh._heal_quad_flat_case, _heal_triangle_flat_case, Element.measure"]}
{"id": "C51", "title": "Node tolerance scales with the mesh", "statement": "Refuted: the absolute node tolerance is node_tol times the size of the bounding box of the node coordinates. It is node_tol times the difference of the greatest and the least node id and does not depend on the coordinates.", "quantifier": "all meshes", "why_tests_cant": "tests never look at the tolerance", "anchors": ["src/bgem/gmsh/heal_mesh.py: HealMesh.__init__"]}
{"id": "C52", "title": "Grouping and splitting object sets lose nothing", "statement": "group of object sets holds their objects with their regions in order (one set is returned itself). split_by_region makes one new set per region, in the order of first objects, holding exactly the objects with this region; it raises just if two objects of different dimension (or a region of another dimension) share a region. split_by_dimension makes four new sets holding exactly the objects of dimension 0 to 3; it raises just if split_by_region would or a dimension is outside 0..3. No object is lost or repeated, other sets stay.", "quantifier": "all states reached by any sequence of calls (exceptions caught by the caller), all answers of the geometry kernel", "why_tests_cant": "all sets", "anchors": ["src/bgem/gmsh/gmsh.py: GeometryOCC.group, ObjectSet.split_by_region, split_by_dimension"]}
{"id": "C53", "title": "Fragments inherit regions", "statement": "fragment of different valid object sets: the set made for the i-th given set holds exactly the pieces of its objects, each with the region of its object; given sets are invalidated, others unchanged. Giving a set twice raises.", "quantifier": "all states reached by any sequence of calls (exceptions caught by the caller), all answers of the geometry kernel with one list of pieces per object", "why_tests_cant": "all maps", "anchors": ["src/bgem/gmsh/gmsh.py: GeometryOCC.fragment"]}
{"id": "C54", "title": "Physical group names are unique", "statement": "_assign_physical_groups makes one group per region of the object set, with the tags of exactly its objects and the dimension of its first object; ids of regions stay. Names of the groups are pairwise different just if no name n_k given to the regions sharing the name n is the name of another region. It makes no group and raises if objects of different dimensions share a region. Refuted in general: regions named a, a, a_0 give two groups named a_0.", "quantifier": "all states reached by any sequence of calls (exceptions caught by the caller), all answers of the geometry kernel", "why_tests_cant": "name collision", "anchors": ["src/bgem/gmsh/gmsh.py: GeometryOCC._assign_physical_groups"]}
{"id": "C55", "title": "Threshold field honours both bounds", "statement": "Refuted: field.threshold(f, lower, upper) ramps between the lower and the upper bound. With any upper bound the field has the value of the lower bound everywhere, so it agrees with the ramp just where that has this value; up to the lower bound it is right, also without an upper bound.", "quantifier": "all stores of fields made by the functions of field.py, all bounds, all points, all distances", "why_tests_cant": "argument mix-up only visible when upper differs from lower", "anchors": ["src/bgem/gmsh/field.py: threshold"]}
{"id": "C56", "title": "make_full_surface represents the same surface", "statement": "For a Z-surface with degrees >= 1, after any calls, make_full_surface() gives a 3D spline whose value at (u,v) is (x, y, z) with z the height at (u,v) and (x,y) the image of (u - u0, v - v0), u0 and v0 being the starts of the knot domains. So it is the same surface if both domains start at 0 and a shifted one otherwise (refuted claim).", "quantifier": "all surfaces, histories and parameters", "why_tests_cant": "tests use domains [0,1] and sample points", "anchors": ["src/bgem/bspline/bspline.py: Z_Surface.make_full_surface, SplineBasis.make_linear_poles"]}
{"id": "C57", "title": "Regular grids are accepted with their shape", "statement": "GridSurface(points, tol) accepts the points o + i*du + j*dv (i < nu, j < nv, j running first; nu, nv >= 2; du, dv independent; the jump between rows differs from dv by more than tol), finds the shape (nu, nv) and gives point (i, j) the parameters (i/(nu-1), j/(nv-1)).", "quantifier": "all lattices, heights and positive tolerances", "why_tests_cant": "all shapes and sizes", "anchors": ["src/bgem/bspline/bspline.py: GridSurface.__init__, _get_grid_corners, _check_grid_regularity"]}
{"id": "C58", "title": "Accepted grids are nearly regular", "statement": "If GridSurface(points, tol) succeeds, each point differs in each coordinate from the regular position computed from the corners by at most (nu+nv)*tol*(longest side of the quad).", "quantifier": "all point lists and positive tolerances", "why_tests_cant": "all irregular inputs; the test for the first points of rows is skipped by the code in some cases", "anchors": ["src/bgem/bspline/bspline.py: GridSurface._get_grid_corners, _check_grid_regularity"]}
{"id": "C59", "title": "BREP records of splines describe the same spline", "statement": "curve_from_bs and surface_from_bs accept every valid 2D/3D spline curve and 3D spline surface (rational or not), and unpacking the knots of the record gives back the same basis and poles.", "quantifier": "all valid curves and surfaces of any degree", "why_tests_cant": "all knot vectors and multiplicities", "anchors": ["src/bgem/bspline/brep_writer.py: curve_from_bs, surface_from_bs, check_knots", "src/bgem/bspline/bspline.py: SplineBasis.pack_knots"]}
{"id": "C60", "title": "Default geometry of edges and faces", "statement": "After write_model of a model not numbered before, every edge of the model that had no representation has the straight line between its two vertices, and every face that had no surface has the plane or bilinear surface through the vertices of its boundary in walking order, and each edge of the boundary has a 2D line on that surface whose ends are mapped to the points of the vertices of the edge.", "quantifier": "all histories of calls, all shape graphs with sharing", "why_tests_cant": "all graphs, orientations and sharing patterns of edges between faces", "anchors": ["src/bgem/bspline/brep_writer.py: Edge.implicit_curve, Edge.attach_to_plane, Face.implicit_surface, Face._dfs, Edge._dfs"]}
{"id": "C61", "title": "Healing does not raise", "statement": "heal_mesh raises no exception on a mesh of points and of lines with two different ends, whatever the tests for short edges answer (edge numbers in range). Refuted for triangles: healing the mesh of a single triangle with one edge below the tolerance and quality below gamma_tol raises KeyError, since the checks go on with the element removed by the merge.", "quantifier": "all meshes of points and lines reached by any sequence of calls, all answers of geometric tests", "why_tests_cant": "all meshes, all outcomes of the tests", "anchors": ["src/bgem/gmsh/heal_mesh.py: HealMesh.heal_mesh, _check_degen_nodes, _check_small_edge, merge_node"]}
{"id": "C62", "title": "Edges of a tetrahedron are paired with their faces", "statement": "Refuted: the sum in smooth_grad_error_indicator multiplies the squared length of each edge by the areas of the two faces meeting in the edge. It differs from that sum by F3 (F0 - F2) (l3^2 - l5^2), since the entries for the edges 2-3 and 1-2 are swapped.", "quantifier": "all areas and lengths", "why_tests_cant": "the difference vanishes for regular tetrahedra", "anchors": ["src/bgem/gmsh/heal_mesh.py: Tetrahedron.smooth_grad_error_indicator, vtxs_faces, edges"]}
{"id": "C63", "title": "Flat indicator is the least altitude over the greatest edge", "statement": "flat_indicator of a triangle with edges of at least 1e-300 is the least altitude divided by the greatest edge. Refuted for tetrahedra: with edges and faces of at least 1e-300 it is exactly twice that.", "quantifier": "all triangles and tetrahedra", "why_tests_cant": "a constant factor does not show without an independent formula", "anchors": ["src/bgem/gmsh/heal_mesh.py: ShapeBase.flat_indicator, Tetrahedron.measure, face_areas"]}
{"id": "C64", "title": "Object sets stay consistent", "statement": "In every state each valid object set has one existing region per object and different regions have different ids. During a program a region keeps its id and its dimension once set, an invalidated set stays invalidated, a region name keeps its region, physical groups are never removed.", "quantifier": "all states reached by any sequence of calls (exceptions caught by the caller), all answers of the geometry kernel", "why_tests_cant": "all sequences of calls, also failing ones", "anchors": ["src/bgem/gmsh/gmsh.py: GeometryOCC, ObjectSet, Region"]}
{"id": "C65", "title": "rectangle changes the list of its sides", "statement": "rectangle with a list of two sides makes the rectangle around the given centre, but appends a third number to the list; every later call with the same list raises, whatever is called in between. Refuted: rectangle with default sides works repeatedly.", "quantifier": "all states reached by any sequence of calls (exceptions caught by the caller), all answers of the geometry kernel", "why_tests_cant": "two calls in one process", "anchors": ["src/bgem/gmsh/gmsh.py: GeometryOCC.rectangle"]}
{"id": "C66", "title": "Boolean operations inherit regions", "statement": "cut, intersect and fragment of one set by tools: the result holds the pieces the kernel made of each object with the region of this object; the set is invalidated, the tools and all other sets stay valid and unchanged.", "quantifier": "all states reached by any sequence of calls (exceptions caught by the caller), all answers of the geometry kernel", "why_tests_cant": "all answers of the kernel", "anchors": ["src/bgem/gmsh/gmsh.py: ObjectSet._apply_operation, cut, intersect, fragment"]}
{"id": "C67", "title": "split_by_cut separates the pieces", "statement": "The four sets of split_by_cut hold the pieces only of the objects, only of the tools, and those of both with the regions from the objects and with those from the tools, each piece once; the set is invalidated. A single tool is invalidated, several tools are not, although the kernel consumed their objects.", "quantifier": "all states reached by any sequence of calls (exceptions caught by the caller), all answers of the geometry kernel", "why_tests_cant": "all answers of the kernel, all orders of walking through sets", "anchors": ["src/bgem/gmsh/gmsh.py: ObjectSet.split_by_cut"]}
{"id": "C68", "title": "select_by_intersect selects", "statement": "select_by_intersect returns the objects for which the intersection with the tools has exactly one piece, with their regions, and raises just if an object has several; it changes no object set.", "quantifier": "all states reached by any sequence of calls (exceptions caught by the caller), all answers of the geometry kernel", "why_tests_cant": "all answers of the kernel", "anchors": ["src/bgem/gmsh/gmsh.py: ObjectSet.select_by_intersect"]}
{"id": "C69", "title": "The synchronized model is up to date when asked", "statement": "In a program without make_polygon, keep_only, make_mesh(eliminate=True), empty fragment and fragment or split of a set by itself, the synchronized model is never asked while the geometry changed after the last synchronization. Refuted: with make_polygon; with a fragment of a set with itself; and make_mesh(eliminate=True) after any program as above always makes the mesh from the model before the removal, when all calls of the kernel work.", "quantifier": "all sequences of calls, all answers of the kernel with one list of pieces per object", "why_tests_cant": "all sequences of calls", "anchors": ["src/bgem/gmsh/gmsh.py: GeometryOCC.synchronize, make_polygon, keep_only, make_mesh, fragment"]}
{"id": "C70", "title": "Fields have the documented values", "statement": "box is v_in inside and v_out outside; constant is the value within the radius in each coordinate and 1e300 elsewhere; min and max are the least and greatest value of the given fields. A new field gets a new number and changes the value of no other field.", "quantifier": "all stores of fields made by the functions of field.py, all points, all distances", "why_tests_cant": "all points, all nested fields", "anchors": ["src/bgem/gmsh/field.py: box, constant, min, max"]}
{"id": "C71", "title": "restrict lists the right objects", "statement": "restrict sets the lists of points, edges, faces and volumes to the tags of the objects of the given sets of this dimension, in order, with add_boundary followed by those of the boundary.", "quantifier": "all states reached by any sequence of calls (exceptions caught by the caller), all answers of the geometry kernel", "why_tests_cant": "all answers of the kernel", "anchors": ["src/bgem/gmsh/field.py: restrict"]}
{"id": "C72", "title": "Options are checked", "statement": "After finish_init an assignment to an option succeeds just if the name is defined and the value is a number for an option with type int, float, bool or enumeration or a string for a string; then exactly the option prefix + name is set to it, otherwise nothing. No assignment changes an option with another prefix. Refuted: options of enumerations take only members.", "quantifier": "all names, values, sequences of assignments", "why_tests_cant": "all names and values", "anchors": ["src/bgem/gmsh/options.py: OptionsBase"]}
{"id": "C73", "title": "Regions by name", "statement": "Once a name was used, it denotes the same region for the whole program. Refuted: the region keeps this name; physical groups rename it. Each call takes a region id, also for a known name.", "quantifier": "all states reached by any sequence of calls (exceptions caught by the caller), all answers of the geometry kernel", "why_tests_cant": "all sequences of calls", "anchors": ["src/bgem/gmsh/gmsh.py: GeometryOCC.get_region_name, _assign_physical_groups"]}
{"id": "C74", "title": "get_boundary", "statement": "get_boundary makes a new set of the objects the kernel answers, in order, with the default region of their dimension; other sets stay.", "quantifier": "all states reached by any sequence of calls (exceptions caught by the caller), all answers of the geometry kernel", "why_tests_cant": "all answers of the kernel", "anchors": ["src/bgem/gmsh/gmsh.py: ObjectSet.get_boundary"]}
{"id": "C75", "title": "remove_small_mass", "statement": "remove_small_mass keeps in the set exactly the objects with mass over the limit, in order and with their regions; other sets stay.", "quantifier": "all states reached by any sequence of calls (exceptions caught by the caller), all answers of the geometry kernel", "why_tests_cant": "all masses", "anchors": ["src/bgem/gmsh/gmsh.py: ObjectSet.remove_small_mass"]}
{"id": "C76", "title": "Snapping to points", "statement": "With a positive tolerance and some point in the decomposition, snapping a place (_snap_point) answers a point exactly if some point is within the tolerance, the point it answers is one of them, and nothing changes. It need not be the nearest one, and when the only point, or the only segment, has been removed, snapping of other places fails.", "quantifier": "all histories of the polygon editor, all places and tolerances inside the range of the lookup tables", "why_tests_cant": "all configurations of points and places, distances at the limit of the tolerance", "anchors": ["src/bgem/polygons/polygons.py: PolygonDecomposition._snap_point"]}
{"id": "C77", "title": "Snapping to segments and polygons", "statement": "Away from points, if exactly one segment is within the tolerance, snapping answers that segment and the parameter of its nearest place. If several are, the answer is one with none nearer. If none is, the answer is the polygon on the side of the place at a nearest segment, or one around its end if the end is nearest.", "quantifier": "all histories of the polygon editor with vectors up to date and no segment of zero length, all places and tolerances inside the range of the lookup tables", "why_tests_cant": "all drawings and places, index queries may miss the nearest segment", "anchors": ["src/bgem/polygons/polygons.py: PolygonDecomposition._snap_point, seg_project_point"]}
{"id": "C78", "title": "add_point answers a near point", "statement": "If at most one segment is within the tolerance of the place, add_point answers a point less than sqrt(2) tolerances away. Points from before stay where they are and no point but the answer is new. Away from points and close to one segment the answer is an end of this segment, or the segment is split in two at the answer, at least the tolerance from both ends. With two segments close to the place the answer can be many tolerances away.", "quantifier": "all histories of the polygon editor with vectors up to date and no segment of zero length, all places inside the range of the lookup tables", "why_tests_cant": "all drawings, places and tolerances", "anchors": ["src/bgem/polygons/polygons.py: PolygonDecomposition.add_point, _add_point_impl, _point_on_segment"]}
{"id": "C79", "title": "add_point twice", "statement": "A second add_point of the same place answers the same point and changes neither the decomposition nor the lookup tables nor the undo stack.", "quantifier": "as C78", "why_tests_cant": "all drawings, places and tolerances", "anchors": ["src/bgem/polygons/polygons.py: PolygonDecomposition.add_point"]}
{"id": "C80", "title": "Points stay apart", "statement": "If points are at least the tolerance apart, and at least the tolerance from segments they do not end, the points are at least the tolerance apart after add_point as well. Without the condition on segments add_point can make a point nearer than the tolerance to another one.", "quantifier": "as C78", "why_tests_cant": "all drawings, places and tolerances", "anchors": ["src/bgem/polygons/polygons.py: PolygonDecomposition.add_point"]}
{"id": "C81", "title": "Polygon.depth", "statement": "depth of a polygon is twice the number of polygons it lies in, step by step up to the outer polygon, which has depth 0. The docstring promises the number itself; this is false.", "quantifier": "all histories of public calls of Decomposition, all live polygons", "why_tests_cant": "all drawings and nestings", "anchors": ["src/bgem/polygons/polygon.py: Polygon.depth"]}
{"id": "C82", "title": "Polygon.vertices", "statement": "vertices of a polygon other than the outer one are a closed walk along segments. It starts at the side at which the outer wire of the polygon is held, goes from each side to its next side, and passes every side of this wire exactly once. The outer polygon has no vertices.", "quantifier": "as C81", "why_tests_cant": "all drawings and nestings", "anchors": ["src/bgem/polygons/polygon.py: Polygon.vertices"]}
{"id": "C83", "title": "get_childs", "statement": "get_childs answers the polygon and the polygons that lie in it at any depth, and no others. For the outer polygon these are all polygons. The walk over wires underneath meets every wire at or below the first one exactly once, in whatever order sets are walked. A second walk without the reset done by get_childs fails the assertion.", "quantifier": "as C81, all orders of set walks", "why_tests_cant": "all drawings, nestings and orders of sets", "anchors": ["src/bgem/polygons/polygons.py: PolygonDecomposition.get_childs", "src/bgem/polygons/polygon.py: Polygon.child_polygons, Wire.child_wires"]}
{"id": "C84", "title": "Wire.neighbors", "statement": "neighbors of a wire are exactly the wires on the other side of its segments. The docstring promises wires of the same depth; this is false, a neighbour can be a child of the wire.", "quantifier": "all histories of public calls of Decomposition, all wires with a segment", "why_tests_cant": "all drawings and nestings", "anchors": ["src/bgem/polygons/polygon.py: Wire.neighbors"]}
{"id": "C85", "title": "convex_hull_2d", "statement": "For more than two points with two different x coordinates, convex_hull_2d answers a walk through points of the sample from a point back to it. Its points are distinct, all points of the sample are on the right of or on every edge, and every point of the sample is in the convex hull of the answer. If all x coordinates are equal, the answer is the first point three times and misses the other points.", "quantifier": "all lists of rational points", "why_tests_cant": "all point sets, with ties and points on a line", "anchors": ["src/bgem/bspline/bspline_approx.py: convex_hull_2d"]}
{"id": "C86", "title": "min_bounding_rect", "statement": "For at least two points the answer is a rectangle, corners counter-clockwise, with all points inside and a point on every side. Its area is smallest among rectangles around the points with a side along an edge of the list. If the list is a walk around a convex polygon, its area is smallest among all rectangles around the points. For one point the answer can miss the point.", "quantifier": "all lists of real points", "why_tests_cant": "all polygons and all rectangles", "anchors": ["src/bgem/bspline/bspline_approx.py: min_bounding_rect"]}
{"id": "C87", "title": "compute_default_quad", "statement": "For more than two points with two different x coordinates, the default quad is a rectangle with all points inside, and no rectangle with all points inside has smaller area. If all x coordinates are equal, the quad is the first point four times.", "quantifier": "all lists of rational points", "why_tests_cant": "all point sets and all rectangles", "anchors": ["src/bgem/bspline/bspline_approx.py: SurfaceApprox.compute_default_quad"]}
{"id": "C88", "title": "Points used by SurfaceApprox", "statement": "For a quad with nonzero area exactly the points in the quad up to 1e-15 are kept, in order, with their heights and weights; u and v are the coordinates in the quad, cut to [0, 1]. A quad with area 0 raises. With the default quad and three points not on a line no point is lost and every point gets exactly its u and v. More than two points all on one line cannot be approximated with the default quad.", "quantifier": "all quads and lists of points", "why_tests_cant": "all quads and points, also on the border", "anchors": ["src/bgem/bspline/bspline_approx.py: SurfaceApprox._compute_uv_points"]}
{"id": "C89", "title": "Matrices of SurfaceApprox", "statement": "For every number of patches and points in the unit square, the least squares matrix times a vector of poles gives the values of the surface with these poles in the points. The quadratic form of the regularization matrix is 4 times the integral of the squared gradient of that surface over the unit square.", "quantifier": "all numbers of patches, points and poles", "why_tests_cant": "an identity of integrals for all poles and patches", "anchors": ["src/bgem/bspline/bspline_approx.py: SurfaceApprox._build_ls_matrix", "src/bgem/bspline/bspline_approx.py: SurfaceApprox._build_sparse_reg_matrix"]}
{"id": "C90", "title": "compute_approximation is the best fit", "statement": "If the linear solver returns a solution, the heights of the result minimise, among all biquadratic surfaces over the same knots, the sum of squared differences from the data plus the weight times the ratio of norms times 4 times the integral of the squared gradient. The height above a point of the quad is that of its u and v.", "quantifier": "all quads, points, heights, numbers of patches and weights, all competing surfaces", "why_tests_cant": "compares with all surfaces", "anchors": ["src/bgem/bspline/bspline_approx.py: SurfaceApprox.compute_approximation"]}
{"id": "C91", "title": "SurfaceApprox.error", "statement": "error is the largest of the differences height minus data over the points used, and it is attained. Points above the surface do not count: error can be smaller than the largest deviation.", "quantifier": "all quads, points, heights, numbers of patches and weights", "why_tests_cant": "all data; the defect needs points far above the surface", "anchors": ["src/bgem/bspline/bspline_approx.py: SurfaceApprox.compute_approximation"]}
{"id": "C92", "title": "compute_approximation determines its result", "statement": "For positive weight and norms the result is the only surface with the least sum. If all kept heights are equal, the surface is flat and error is 0. If the solver solves every regular system, one point in a quad of nonzero area is enough for a result, and with no quad and no nuv given three points not on a line are enough.", "quantifier": "all quads, points, heights, numbers of patches and weights", "why_tests_cant": "regularity of the matrix for all point sets", "anchors": ["src/bgem/bspline/bspline_approx.py: SurfaceApprox.compute_approximation"]}
{"id": "C93", "title": "Default nuv of SurfaceApprox", "statement": "For a quad of nonzero area the default nu and nv are at least 1, so the exception of too few points is never raised. The direction along the longer side of the quad gets at least as many intervals as the other one. If 81 times each side is at most the number of points times the other side, the number of unknowns is at most a ninth of the number of points. For every number of points there is a quad with more unknowns than points.", "quantifier": "all quads and numbers of points", "why_tests_cant": "all quads", "anchors": ["src/bgem/bspline/bspline_approx.py: SurfaceApprox.compute_default_nuv", "src/bgem/bspline/bspline_approx.py: SurfaceApprox._compute_default_nuv"]}
{"id": "C94", "title": "add_line_for_points draws the line", "statement": "The line keeps the tolerance away from other vertices, its ends from other segments, its crossings from each other, and 1e-10 of each length is below the tolerance. If add_line_for_points returns, the places on segments afterwards are exactly those on segments before and those on the line between the two points.", "quantifier": "all edit histories, end points, orders of Python's sets, answers of the displacement test and geometric choices of the decomposition, all places", "why_tests_cant": "all drawings and all places", "anchors": ["src/bgem/polygons/polygons.py: PolygonDecomposition.add_line_for_points", "src/bgem/polygons/polygons.py: PolygonDecomposition._add_line_seg_intersections", "src/bgem/polygons/polygons.py: PolygonDecomposition._add_line_new_segments"]}
{"id": "C95", "title": "add_line_for_points makes no crossings", "statement": "The line keeps the tolerance away from other vertices, its ends from other segments, its crossings from each other, and 1e-10 of each length is below the tolerance. If two segments met only in common ends before, this is so afterwards.", "quantifier": "all edit histories, end points, orders of Python's sets, answers of the displacement test and geometric choices of the decomposition", "why_tests_cant": "all pairs of segments in all drawings", "anchors": ["src/bgem/polygons/polygons.py: PolygonDecomposition.add_line_for_points", "src/bgem/polygons/polygons.py: PolygonDecomposition._add_line_seg_intersections", "src/bgem/polygons/polygons.py: PolygonDecomposition._add_line_new_segments"]}
{"id": "C96", "title": "Result, points and segments of add_line_for_points", "statement": "The line keeps the tolerance away from other vertices, its ends from other segments, its crossings from each other, and 1e-10 of each length is below the tolerance. The returned segments are joined one after the other from a to b and go along the line. Points stay where they are. New points are exactly at the crossings; there the crossed segment is split, its first part keeps the id, the second part has a new one. Other segments keep their ends. Every other new segment is in the result.", "quantifier": "all edit histories, end points, orders of Python's sets, answers of the displacement test and geometric choices of the decomposition", "why_tests_cant": "all drawings with any number of crossings", "anchors": ["src/bgem/polygons/polygons.py: PolygonDecomposition.add_line_for_points", "src/bgem/polygons/polygons.py: PolygonDecomposition._add_line_seg_intersections", "src/bgem/polygons/polygons.py: PolygonDecomposition._add_line_new_segments"]}
{"id": "C97", "title": "Adding a line again, and lines close to points", "statement": "The line keeps the tolerance away from other vertices, its ends from other segments, its crossings from each other, and 1e-10 of each length is below the tolerance. If a segment joins the two points already, exactly it is returned, and points and segments do not change. A line over a point that ends no segment does not connect that point. With two crossings closer than the tolerance and a refused merge, a piece of the line is missing and the result does not join the two points. add_line with both ends at one point returns the point, not a list.", "quantifier": "all edit histories, end points, orders of Python's sets, answers of the displacement test and geometric choices of the decomposition", "why_tests_cant": "all drawings; the defects need special positions", "anchors": ["src/bgem/polygons/polygons.py: PolygonDecomposition.add_line_for_points", "src/bgem/polygons/polygons.py: PolygonDecomposition._add_line_seg_intersections", "src/bgem/polygons/polygons.py: PolygonDecomposition._add_line_new_segments", "src/bgem/polygons/polygons.py: PolygonDecomposition.add_line"]}
{"id": "C98", "title": "add_line between two places", "statement": "If both ends of the line are the tolerance away from points, segments and each other, and the line keeps away from vertices as in C94, add_line returns a list; there are two new points exactly at the given places; the segments of the list go from the first to the second along the line; the places on segments afterwards are exactly those before and those on the line; segments still meet only in common ends; old points stay and other new points are only at crossings.", "quantifier": "all edit histories, places, orders of Python's sets, answers of the displacement test and geometric choices", "why_tests_cant": "all drawings and all places", "anchors": ["src/bgem/polygons/polygons.py: PolygonDecomposition.add_line", "src/bgem/polygons/polygons.py: PolygonDecomposition.add_line_for_points", "src/bgem/polygons/polygons.py: PolygonDecomposition._add_point_impl"]}
{"id": "C99", "title": "merging cuts the first decomposition into parts and the map tells of what", "statement": "After (decomp, maps_self, maps_other) = intersect_single(decomp, other), for every segment of the first decomposition the segments of the result that maps_self[1] takes to it (ids that are not keys stand for themselves) cover exactly its places. Every segment of the result is such a part or has a value in maps_other[1]; keys are segments of the result and values segments of the first decomposition; no segment or point loses its id or place. The result is a decomposition again (half-edge structure, tree of wires, Euler's formula) and its tolerance is the one from before. If crossings of the first decomposition are at one place a part can be lost (refutation).", "quantifier": "all decompositions made by edits and merges, all other decompositions, all tolerances above zero, all geometric choices read off the drawing; points of the result are the tolerance apart", "why_tests_cant": "all pairs of decompositions; the two dictionaries are updated in three loops while segments are split", "anchors": ["src/bgem/polygons/merge.py: intersect_single"]}
{"id": "C100", "title": "the map of polygons agrees with the map of segments", "statement": "Polygons of the first decomposition keep their ids; every polygon of the result is taken by maps_self[2] to one polygon of the first decomposition and keys are new polygons. On each side of a part of a segment lies a polygon that is taken to the polygon on this side of the whole segment.", "quantifier": "as C99", "why_tests_cant": "all pairs of decompositions and all orders of splits of polygons", "anchors": ["src/bgem/polygons/merge.py: intersect_single"]}
{"id": "C101", "title": "the maps to the other decomposition", "statement": "Keys of maps_other are points, segments and polygons of the result, each once; values are those of the other decomposition. Every polygon of the result is a key. The filling loop stops for every decomposition and raises nothing: a polygon gets a value exactly if one with a value is reached across outer wires over polygons without a value, and given values stay. What is across the outer wire of a polygon with a value has a value. That every polygon has a value is false: a square merged before a square around it has none.", "quantifier": "as C99", "why_tests_cant": "termination of the search and all shapes of decompositions", "anchors": ["src/bgem/polygons/merge.py: intersect_single"]}
{"id": "C102", "title": "merging a list of decompositions", "statement": "If intersect_decompositions(decomps) returns, there is one list of maps for each decomposition; every point, segment and polygon of a decomposition is a value of its map and keys belong to the result. A later merge leaves what is mapped to a segment on the same places, keeps all entries, and gives a new polygon the value of the polygon it is part of. Merging one decomposition a second time after another one has cut it raises (refutation).", "quantifier": "all lists of decompositions, tolerances above zero and geometric choices read off the drawing; points of the result are the tolerance apart", "why_tests_cant": "lists of any length; maps are composed after each merge", "anchors": ["src/bgem/polygons/merge.py: intersect_decompositions", "src/bgem/polygons/merge.py: intersect_single"]}
{"id": "C103", "title": "segments of the other decomposition become walks with its polygons beside them", "statement": "After (decomp, maps_self, maps_other) = intersect_single(decomp, other), every segment of the other decomposition has a walk of segments of the result from the point for its first end to the point for its second end, where points for points agree with maps_other[0]. Polygons on both sides of the walk have a value in maps_other[2]. A segment with a value in maps_other[1] is on such a walk of this value. Every value given before the filling loop is that of a polygon beside a walk: on the right of the walk a polygon gets the one on the right of the other's segment, on the left the one on the left; all other values reach a polygon from those across outer wires.", "quantifier": "as C99, for all orders of the points of the other decomposition with each once", "why_tests_cant": "all pairs of decompositions; new segments may run against the direction of the other's segment and the sides have to be swapped", "anchors": ["src/bgem/polygons/merge.py: intersect_single", "src/bgem/polygons/polygons.py: _add_line_new_segments"]}
{"id": "C104", "title": "a wire from a list of segments has the listed sides", "statement": "make_wire_from_segments(ids, polygon), where ids are the segments of a closed way over at least two sides, each side once, makes a new wire of the polygon: wire.segments() answers the sides of the way in this order, exactly those sides get the wire, the wire is its own parent, all other next sides, wires, points and polygons are as before. The way has to show its direction: if it leaves the first segment at its second end, the second segment does not touch the first end. Whenever the call returns, each listed segment starts where the one before ends. Not so: a wire that starts at the tip of a dendrite is refused; a way that is not closed is accepted.", "quantifier": "for all decompositions in which no wire was removed, all lists of sides", "why_tests_cant": "all closed ways of any length, with dendrites and repeated points", "anchors": ["src/bgem/polygons/polygons.py: PolygonDecomposition.make_wire_from_segments", "src/bgem/polygons/segment.py: Segment.point_side"]}
{"id": "C105", "title": "make_polygon builds the listed decomposition", "statement": "Points and segments are appended to an empty decomposition, then make_polygon is called for each entry of a listing (outer wire, holes, free points) in which every side of every segment is once and every point without segments is once. Then all calls return; every polygon has the listed outer wire, the listed holes as children of it and the listed free points; entries without outer wire belong to polygon 0; there are no other wires, free points or polygons, entries with an outer wire have different polygons. The sides are a half-edge structure (as C17), parents and children are the same relation, end points and coordinates are as before.", "quantifier": "for all points, segments and listings with closed ways that show their direction", "why_tests_cant": "all decompositions with any number of polygons and holes", "anchors": ["src/bgem/polygons/polygons.py: PolygonDecomposition.make_polygon", "src/bgem/polygons/polygons.py: PolygonDecomposition.make_wire_from_segments"]}
{"id": "C106", "title": "set_wire_parents finds the hole around each wire", "statement": "set_wire_parents after C105 ends. A wire that was its own parent and is reached from a hole across segments through such wires only gets a hole as parent from which it is reached so; every other wire keeps its parent. Nothing else is changed: next sides, wires of sides, polygons, free points, holes; the polygons are as listed and parents and children are the same relation. Not so: every wire has another parent at the end (sides listed in the wrong role are not noticed).", "quantifier": "as C105, for all orders of the polygons", "why_tests_cant": "the search runs over a queue that grows; its end and its completeness depend on all wires", "anchors": ["src/bgem/polygons/polygons.py: PolygonDecomposition.set_wire_parents", "src/bgem/polygons/polygon.py: Wire.neighbors"]}
{"id": "C107", "title": "check_displacment finds every crossing with the segments around", "statement": "check_displacment(points, d) ends and leaves the decomposition alone. It reports the polygons beside the segments of the points. It answers True just if no point on its way, and no segment of the points in its new place, crosses a segment that stays and belongs to a wire at or below the outer wire of a reported polygon (crosses: inside of both, 1e-10 of the length away from the ends, not parallel). So after move_points(points, d) no moved segment crosses such a segment. Not so: free points (nothing is tested), moved segments among each other, and a wall that passes a segment within its polygon, which is outside after the move.", "quantifier": "for all decompositions made without joins, all lists of points in it, all vectors", "why_tests_cant": "all nestings of wires; the list of wires grows while it is walked through", "anchors": ["src/bgem/polygons/polygons.py: PolygonDecomposition.check_displacment", "src/bgem/polygons/polygons.py: PolygonDecomposition.seg_intersection"]}
{"id": "C108", "title": "move_points moves just the points", "statement": "move_points(points, d) with different points returns: each of the points is moved by d, all other points stay; the vector of each segment is the difference of its ends; ends, next sides, wires of sides, wires, polygons, free points and the table of segments by points are as before. Not so: a point listed twice moves by 2 d.", "quantifier": "for all decompositions made without joins, all lists of points in it, all vectors", "why_tests_cant": "all decompositions and all lists; two ends of one segment can both move", "anchors": ["src/bgem/polygons/polygons.py: PolygonDecomposition.move_points", "src/bgem/polygons/point.py: Point.move"]}
{"id": "C109", "title": "SurfacePoint lists the patches around a point", "statement": "SurfacePoint(surf, (iu, iv), (u, v)) with the point in the closed patch (iu, iv) lists, each once, just the patches whose closed rectangle of parameters holds (u, v); patch_id() gives just their numbers; surface_boundary_flag is set just on the boundary of the domain. The domain is the unit square. Not so: in another domain a patch that holds the point is left out, or a patch that does not exist is listed.", "quantifier": "for all surfaces of degree 2 over the unit square without empty intervals, all patches and all points of them", "why_tests_cant": "all knot vectors; inner, side and corner points of all patches", "anchors": ["src/bgem/bspline/surface_point.py: SurfacePoint.__init__", "src/bgem/bspline/surface_point.py: SurfacePoint.extend_patches", "src/bgem/bspline/surface_point.py: SurfacePoint.patch_id"]}
{"id": "C110", "title": "Main threads lie on the surface", "statement": "_main_curves(surf, axis) makes one curve for each knot line of the axis; the curve at y is the point of the surface with the fixed parameter at the knot and the other parameter y. Not so: rational surfaces, their weights are taken for one more coordinate.", "quantifier": "for all surfaces of degree 2 without empty intervals and weights, both axes, all knot lines, all y in the domain", "why_tests_cant": "all knot vectors and poles; reals", "anchors": ["src/bgem/bspline/isec_surf_surf.py: IsecSurfSurf._main_curves"]}
{"id": "C111", "title": "Newton's method for a curve and a patch", "statement": "get_intersection(iu, iv, it, max_it, rel_tol, abs_tol) returns parameters in the closed patch and interval. xyz is the middle of a point of the patch and a point of the piece of the curve; conv is set just if they are at most abs_tol apart, and xyz is then at most half of it from both. If they are less than abs_tol apart they belong to the returned parameters. The matrix has the derivatives of both as columns, the one of the curve with opposite sign. With matrices that are regular the call fails just for max_it = 0. For a flat patch and a straight piece that meet in one point two turns are enough: the returned parameters are the exact ones, or the middle if it is near enough. Not so: the returned parameters may be wrong with conv set, if the last points were just abs_tol apart.", "quantifier": "for all surfaces and curves in space of degree 2 without empty intervals and weights, all patches, intervals, tolerances and numbers of turns", "why_tests_cant": "all shapes; real numbers; all numbers of turns", "anchors": ["src/bgem/bspline/isec_curve_surf.py: IsecCurveSurf.get_intersection", "src/bgem/bspline/isec_curve_surf.py: IsecCurveSurf._compute_jacobian_and_coordinates"]}
{"id": "C112", "title": "Points found between two surfaces", "statement": "IsecSurfSurf.get_intersections(surf1, surf2): each listed point has its own point on a knot line of surf1 and its other point in a candidate patch of surf2; its place is the middle of points of both surfaces at most abs_tol apart, which belong to the listed parameters if they are less than that apart. If Newton's method succeeds for a thread, an interval of it and a candidate patch, its point is listed, or a point is listed at one of the two ends of the interval.", "quantifier": "for all pairs of surfaces in space of degree 2 without empty intervals and weights, all candidates, tolerances and numbers of turns", "why_tests_cant": "all pairs of surfaces; the marks of one thread hide intervals of others", "anchors": ["src/bgem/bspline/isec_surf_surf.py: IsecSurfSurf.get_intersections", "src/bgem/bspline/isec_surf_surf.py: IsecSurfSurf._already_found"]}
{"id": "C113", "title": "Boxes of pieces and patches miss no common point", "statement": "Curve.boxes[it] and Surface.boxes[surf.patch_pos2id(iu, iv)] are the smallest boxes around the poles that the piece or patch depends on, one for each piece or patch in the order of their numbers, and hold all points of it. tree2.find_box(curve.boxes[it]) lists, each once, just the patches whose poles overlap those of the piece in every coordinate; a patch that has a point in common with the piece is always listed. Hence a straight piece of a thread that crosses a flat patch in one point gives a listed point of get_intersections: the exact one, the middle if it is within the tolerance, or a point at an end of the interval.", "quantifier": "for all curves and surfaces of degree 2 without empty intervals and weights, all pieces, patches and common points", "why_tests_cant": "all knot vectors and poles; a lost candidate shows as a missing point only for some shapes", "anchors": ["src/bgem/bspline/bspline.py: Curve.bounding_boxes", "src/bgem/bspline/bspline.py: Surface.bounding_boxes", "src/bgem/bspline/isec_surf_surf.py: IsecSurfSurf.get_intersections"]}
{"id": "C114", "title": "Surfaces of grids on the graph of a function", "statement": "make_function_grid(fn, nu, nv) gives nu x nv points; point (i, j) has the places i/(nu-1), j/(nv-1) of the unit interval (0 for a single place) and the value of fn there. GridSurface(grid.reshape(-1, 3)) with at least two places in both axes is accepted with shape (nu, nv); for (u, v) in the unit square eval_array gives the point over (u, v) itself, z_eval_array the same height; at the places of the grid the height is the value of fn; for fn(x, y) = a + b x + c y + d x y it is the value of fn everywhere.", "quantifier": "for all functions, all nu and nv, all tolerances up to 1, all (u, v) in the unit square", "why_tests_cant": "all functions and sizes; real places", "anchors": ["src/bgem/bspline/bspline.py: make_function_grid", "src/bgem/bspline/bspline.py: GridSurface.__init__", "src/bgem/bspline/bspline.py: GridSurface.eval_array"]}
{"id": "C115", "title": "Shapes of tetrahedra: quality and distance of opposite edges", "statement": "For four nodes of nonzero volume gmsh_gamma raises nothing and gives a positive number; there are a sphere through the nodes of radius R and a sphere inside that touches the four faces of radius r, 3 r <= R. For volumes of at least 1e-300 the quality is at most 1, and for R of at least 1e-300 it is 3 r / R. For zero volume the quality is 0 where it is defined; for four nodes on one circle the assertion fails (AssertionError). skew_line_dist gives, for edges 01 and 23 that are not parallel, a unit vector across both edges, oriented by them, and a signed number: its size is the least distance of the two lines, attained at two points that differ by the number times the vector. For parallel edges there is no number.", "quantifier": "for all quadruples of nodes", "why_tests_cant": "all real positions of nodes; the spheres are not values of the program", "anchors": ["src/bgem/gmsh/heal_mesh.py: Tetrahedron.gmsh_gamma", "src/bgem/gmsh/heal_mesh.py: Tetrahedron.skew_line_dist", "src/bgem/gmsh/heal_mesh.py: Tetrahedron.face_areas"]}
{"id": "C116", "title": "Approximations of grid surfaces start from the points of the grid", "statement": "For a GridSurface of nu x nv points just made, SurfaceApprox.approx_from_grid_surface gives an object with nu*nv points; its point j*nu + i has the height of the point i*nv + j of the grid, and for grids that are exact lattices it is that point. The quad of the object is the quad of the grid: for a lattice its points (0, nv-1), (0, 0), (nu-1, 0), (nu-1, nv-1). After any transforms of the grid surface the points are those of the untouched one, moved by the last transform of the plane about its middle, with heights scaled and shifted by the last transform of heights about the height of the middle.", "quantifier": "for all accepted grids (heights) and all sequences of transforms; for all lattices of both shapes and directions (points)", "why_tests_cant": "all sizes and positions of grids", "anchors": ["src/bgem/bspline/bspline_approx.py: SurfaceApprox.approx_from_grid_surface", "src/bgem/bspline/bspline.py: GridSurface.eval_array", "src/bgem/bspline/bspline.py: SplineBasis.make_linear_poles"]}
{"id": "C117", "title": "The answer about changed polygons names the polygons beside the segment", "statement": "In any state that a history of C17 reaches: after delete_segment, get_last_polygon_changes does not raise, a shape answer is the list of the one existing polygon that was on both sides of the segment, and the two ids of any other answer but none are those of the polygons on its two sides, one kept and one added or gone. The same holds after new_segment (sides of the new segment) if each free end was recorded in the polygon where the segment comes to lie; without this the answer may name a polygon that is not beside the segment. Add is not told from split here, nor remove from join.", "quantifier": "all states of histories and all operations that return", "why_tests_cant": "all states", "anchors": ["src/bgem/polygons/polygons.py: PolygonDecomposition.get_last_polygon_changes", "src/bgem/polygons/decomp.py: Decomposition._wire_add_dendrite"]}
