#!/usr/bin/env python3
"""Writes ../properties.jsonl (kept as a script only so that the JSON stays well formed)."""
import json, os
P = []
def p(title, statement, quantifier, why, anchors):
    P.append(dict(id="C%02d" % (len(P)+1), title=title, statement=statement,
                  quantifier=quantifier, why_tests_cant=why, anchors=anchors))

# ---------------------------------------------------------------- graphs
p("Cuthill-McKee ordering is a permutation",
  "GraphUnd::cuthill_mckee(start) on a connected graph built with calc_degree=true returns a list in which every vertex 0..nnode-1 occurs exactly once and whose last element is the chosen start vertex (the order is reversed at the end); with start=None the start is the vertex returned by pseudo_peripheral(None), whose error is passed on.",
  "every connected undirected graph with any number of vertices, every valid start vertex (or None)",
  "tests look at a handful of small meshes; a vertex lost or duplicated for some topology would corrupt every renumbered mesh",
  ["src/graph/graph_und.rs:GraphUnd::cuthill_mckee", "src/graph/graph_und.rs:GraphUnd::from_adjacency_set"])
p("Cuthill-McKee ordering is a breadth-first level ordering",
  "In the list returned by cuthill_mckee(start) vertices appear by non-increasing number of edges from the start vertex, every vertex other than the start has a neighbour that appears after it, and, read from the end, vertices are sorted by the position of their first numbered neighbour and then by (degree, id): this determines the ordering completely.",
  "every connected undirected graph, every start vertex",
  "level structure is a property of all topologies; it is what bounds the bandwidth after renumbering",
  ["src/graph/graph_und.rs:GraphUnd::cuthill_mckee"])
p("BFS shortest path is a real path and is shortest",
  "shortest_path_bfs(a,b) returns a list starting at a, ending at b, with consecutive vertices adjacent, and no path between a and b in the graph has fewer edges (the graph being connected as from_adjacency_set guarantees).",
  "every connected undirected graph, all pairs (a,b) of vertices",
  "optimality over all alternative paths cannot be enumerated by examples",
  ["src/graph/graph_und.rs:GraphUnd::shortest_path_bfs"])
p("calc_distance returns graph distances",
  "After calc_distance(root) the reported distance of every vertex equals the least number of edges of a path from root to it, and the returned maximum distance is the eccentricity of the root.",
  "every connected undirected graph and every root",
  "minimality over all paths of all graphs",
  ["src/graph/graph_und.rs:GraphUnd::calc_distance"])
p("Graph construction accepts exactly the connected graphs",
  "from_edges and from_mesh with check_connectivity=true return Ok iff the graph is connected (every vertex reachable from vertex 0); they return the 'hanging vertices/edges' error otherwise. Without the check they always return Ok for in-range input.",
  "every non-empty symmetric adjacency structure",
  "a disconnected mesh can be disconnected in infinitely many ways",
  ["src/graph/graph_und.rs:GraphUnd::from_adjacency_set"])
p("Graph of a mesh is exactly the share-a-cell relation",
  "In GraphUnd::from_mesh two distinct points are adjacent iff some cell contains both; adjacency is symmetric, has no self loops and no repetitions, the degree of a vertex is its number of neighbours, and the number of edges is half the sum of degrees. get_density is the number of edges divided by that of all pairs (between zero and one, one exactly for complete graphs); the non-zero pattern printed has one row per vertex with its adjacent vertices and the diagonal.",
  "every mesh whose cell points are in range",
  "sparsity pattern must be right for every mesh, not only the sample meshes",
  ["src/graph/graph_und.rs:GraphUnd::from_mesh", "src/graph/graph_und.rs:GraphUnd::from_adjacency_set", "src/graph/graph_und.rs:get_nedge", "src/graph/graph_und.rs:get_degree"])
p("Bandwidth is the maximum index distance across an edge",
  "calc_bandwidth returns max(|i-j|+1) over adjacent vertices i,j of the numbering stored in the graph (1 if there is no edge); after renumbering the mesh with a permutation it equals max(|new(i)-new(j)|+1) over the pairs of points of the old mesh that share a cell.",
  "every undirected graph and every numbering",
  "needs all graphs",
  ["src/graph/graph_und.rs:GraphUnd::calc_bandwidth", "src/graph/graph_und.rs:get_old_to_new_map"])
p("Renumbering points preserves the mesh up to the renumbering",
  "renumber_points(old_to_new) / GraphUnd::renumber_mesh with a permutation returns a mesh in which point new(i) has the coordinates and marker of old point i and id new(i), and every cell has the same kind, marker, id and the same sequence of coordinates; inputs that are not a permutation of 0..npoint-1 give Err.",
  "every mesh and every renumbering array",
  "all permutations of all sizes",
  ["src/mesh/mesh.rs:Mesh::renumber_points", "src/graph/graph_und.rs:GraphUnd::renumber_mesh"])
p("Renumbering does not renumber marked edges and faces",
  "renumber_points leaves the lists marked_edges and marked_faces exactly as they were. (The expectation that every marked edge/face still refers to the same geometric points after a renumbering is false of the code; a witness is given.)",
  "every mesh with marked edges or faces and every permutation",
  "existing tests only renumber meshes without marked features",
  ["src/mesh/mesh.rs:Mesh::renumber_points", "src/mesh/mesh.rs:Mesh::marked_edges"])
p("Pseudo-peripheral vertex has eccentricity at least that of the start",
  "pseudo_peripheral(start) returns a vertex r whose eccentricity is at least that of the start and equals both the eccentricity of some vertex u and the distance from u to r, r having the least (degree, id) among the vertices farthest from u; the only other outcome is the iteration error, which is impossible if no eccentricity exceeds that of the start by 10 or more. (That the search always converges on connected graphs is false.)",
  "every connected graph and every start",
  "iteration behaviour depends on topology",
  ["src/graph/graph_und.rs:GraphUnd::pseudo_peripheral"])
p("Floyd-Warshall distances are shortest-path distances",
  "After shortest_paths_fw on a directed graph without self-loops and parallel edges and with non-negative weights, dist(i,j) is the least total weight over all walks from i to j, 0 on the diagonal, and infinite iff there is no walk.",
  "every directed graph with non-negative weights (exact arithmetic), all i,j",
  "minimum over infinitely many walks",
  ["src/graph/graph_dir.rs:GraphDir::shortest_paths_fw", "src/graph/graph_dir.rs:calc_dist_and_next"])
p("Floyd-Warshall path query returns a shortest path",
  "path(a,b) after shortest_paths_fw terminates, starts at a, ends at b, uses only edges of the graph and its total weight equals dist(a,b), if b is reachable from a; otherwise the error \"no path found\" is returned; set_weight invalidates the tables.",
  "every directed graph with non-negative weights (zero weights and zero-weight cycles included), all a,b",
  "termination and optimality over all graphs",
  ["src/graph/graph_dir.rs:GraphDir::path"])
# ---------------------------------------------------------------- grid search
p("Grid search never returns a far away point",
  "GridSearch::search(x) returning Ok(Some(id)) implies that some insertion of id was made at coordinates whose distance from x is at most sqrt(ndim) times the tolerance. (The current position of an id inserted twice may be elsewhere: old copies stay.)",
  "every insertion history and every query",
  "depends on the whole history of insertions and on container boundaries",
  ["src/util/grid_search.rs:GridSearch::search", "src/util/grid_search.rs:GridSearch::insert"])
p("Grid search finds every point that is close enough",
  "If the last insertion of some id differs from the query by at most `tolerance` in every coordinate and the query is inside the limits then search returns Ok(Some(_)), whatever containers the two fall in; insert, search and is_outside agree on what is outside; the limits contain the box given to the constructor. (Not so for all points within the comparison distance sqrt(ndim)*tolerance.)",
  "every grid, every insertion history, every query within limits",
  "failures occur only at container boundaries/corners; needs all positions",
  ["src/util/grid_search.rs:GridSearch::insert", "src/util/grid_search.rs:set_halo", "src/util/grid_search.rs:GridSearch::search"])
p("Search on line/circle/cylinder/plane is exactly the filtered set of inserted points",
  "search_on_line, search_on_circle, search_on_cylinder and search_on_plane_* return exactly the ids inserted at a place within sqrt(ndim)*tolerance of the geometric entity for which the filter returns true (each id inserted once; for ids inserted repeatedly: every id returned has such an insertion, every id whose last insertion is such is returned), and Err for wrong dimensions or degenerate axes.",
  "every grid content, entity and filter",
  "the container pre-selection could drop points for unlucky geometry",
  ["src/util/grid_search.rs:search_on_line", "src/util/grid_search.rs:search_on_circle", "src/util/grid_search.rs:search_on_cylinder", "src/util/grid_search.rs:search_on_plane_xy"])
# ---------------------------------------------------------------- text format
p("Text mesh round trip",
  "Mesh::from_text(mesh.to_string()) returns a mesh equal to the original, for every well-formed mesh with at least one point and one cell.",
  "every well-formed mesh (any number of points, cells, marked edges and faces; 2D and 3D)",
  "all meshes",
  ["src/mesh/mesh.rs:impl fmt::Display for Mesh", "src/mesh/read_text_mesh.rs:Mesh::from_text"])
p("Parsed meshes are structurally valid",
  "If from_text succeeds, the number of points and cells equals the header counts, ids are sequential, every cell has exactly kind.nnode() points, and every marked edge/face was read completely.",
  "every input text",
  "arbitrary input strings",
  ["src/mesh/read_text_mesh.rs:Mesh::from_text", "src/mesh/read_text_mesh.rs:DataForReadTextMesh"])
p("Comments and blank lines are irrelevant in mesh text",
  "Inserting or removing blank lines, whole-line comments, and extra white space between tokens does not change the result of from_text.",
  "every input text and every insertion of blank/comment lines",
  "arbitrary texts",
  ["src/mesh/read_text_mesh.rs:Mesh::from_text"])
# ---------------------------------------------------------------- features
p("2D edge map records exactly the sharing cells",
  "extract_all_2d_edges maps the key {a,b} to the list of all (cell, local edge) whose local edge has corner points {a,b}, each exactly once, and has no other keys.",
  "every 2D mesh",
  "all topologies",
  ["src/mesh/algorithms/extract_all_2d_edges.rs"])
p("Face map records exactly the sharing cells",
  "extract_all_faces maps a face key to exactly the (cell, local face) pairs with these corner points, each once, irrespective of orientation and rotation, provided that the mesh has no Tet10/Tet20 cells; in every mesh it groups faces by their first four points (three if the face has three points), which is why two Tet10 cells sharing a face may not share a key.",
  "every 3D mesh",
  "all topologies and local orientations",
  ["src/mesh/algorithms/extract_all_faces.rs", "src/mesh/faces.rs:Face::key"])
p("Extracted features are exactly the wanted ones",
  "Features::new succeeds on every checked mesh. With extract_all = false an edge (2D) or face (3D) is listed iff it belongs to exactly one cell, with extract_all = true iff it belongs to some cell; in 3D the listed edges are exactly the sides of the listed faces. Each listed feature has the kind and nodes of the first cell having it and the marker of the mesh's marked edges/faces (0 if none), and is stored under its own key. get_boundary_edges lists exactly the edges belonging to one cell (2D) or to a face of exactly one cell (3D); search_marked_edges/faces list exactly the features with the marker, sorted by key. (In 3D: meshes without Tet10/Tet20 cells.)",
  "every mesh, both extraction modes and every iteration order of the hash maps",
  "all topologies",
  ["src/mesh/algorithms/extract_features_2d.rs", "src/mesh/algorithms/extract_features_3d.rs", "src/mesh/features.rs:Features::new"])
p("Features list all their points and limits",
  "The set of feature points is exactly the set of points of the listed edges and faces and of cables and shells, the min/max limits are the exact coordinate-wise bounds of those points, and point_to_edges / point_to_faces list exactly the features that contain the point.",
  "every mesh and both extraction modes",
  "all meshes",
  ["src/mesh/features.rs:Features::new"])
p("Neighbour relation is symmetric",
  "get_neighbors_2d(c) contains (e,n,ne) iff get_neighbors_2d(n) contains (ne,c,e); neighbours share the two corner points of the edge and differ from the cell itself.",
  "every 2D mesh and every cell",
  "all topologies",
  ["src/mesh/features.rs:Features::get_neighbors_2d"])
p("Cell and point lookups via edges and faces are sound, complete and sorted",
  "For listed features get_cells_via_2d_edge and get_cells_via_face return the sorted ids of exactly the cells having the edge/face (without repetition when the points of each cell are distinct), the pairs variants add the points of the feature (for several features sorted by the cells, the features of one cell in the order given), get_cells_via_2d_edges / get_cells_via_faces return the sorted union with one entry per given feature, and get_points_via_2d_edges, get_points_via_faces and all_points return exactly the points of the given features in strictly increasing order.",
  "every mesh and list of features",
  "all meshes",
  ["src/mesh/features.rs:get_cells_via_2d_edge", "src/mesh/features.rs:get_cells_via_2d_edges", "src/mesh/features.rs:get_points_via_2d_edges", "src/mesh/features.rs:get_cells_via_face"])
p("Edge and face queries return features lying on the queried entity",
  "search_edges/search_faces(At, filter) returns exactly the extracted edges/faces all of whose key points are found by search_point_ids(At, filter), without duplicates and sorted; search_many_* is the union.",
  "every mesh, query and filter",
  "all meshes and queries",
  ["src/mesh/features.rs:search_edges", "src/mesh/features.rs:search_faces", "src/mesh/features.rs:search_many_edges"])
p("Point queries find exactly the near points that pass the filter",
  "search_point_ids(At, filter) on a line, plane, circle or cylinder returns, sorted and without repetitions, exactly the feature points within sqrt(ndim)*1e-4 of the queried set whose coordinates satisfy the filter, or Err when there are none or the query does not exist in this dimension. For one queried point (At::XY in 2D, At::XYZ in 3D) it returns one near point, and finds one whenever one is within 1e-4 in every coordinate; there the filter is ignored by the code (refuted).",
  "every mesh, query and filter",
  "all meshes, coordinates and filters; tests use the always-true filter with the one-point queries",
  ["src/mesh/features.rs:search_point_ids", "src/mesh/features.rs:new"])
p("Edge chain builds a genuine path",
  "Edges::any_path starts at the lowest loose end (or lowest point if there is none) and returns edges each leaving from the point where the previous one arrived, never the same edge twice in a row, together with all their points in the order of travel; it stops at the start, at a loose end or after n+1 edges. When no point has more than two edges no edge is used twice, and when the edges are also connected (one simple chain or loop) every edge is used.",
  "every non-empty list of Lin edges with distinct end points",
  "all edge orders and orientations",
  ["src/mesh/edges.rs:Edges::any_path"])
# ---------------------------------------------------------------- mesh ops
p("Joining meshes preserves both meshes",
  "join_two_meshes(A,B) (when Ok) keeps all points and cells of A unchanged at their positions; every cell of B appears after them with the same kind, marker and - up to the merge tolerance - the same coordinates; ids are sequential and all point references are valid. A point of B is merged with a point of A within sqrt(ndim)*1e-4, and otherwise appended with its coordinates and marker, in order and without duplicates, when no point of A differs by at most 1e-4 in every coordinate. Joining several meshes concatenates the cells of all and the tolerance does not accumulate.",
  "every pair (list) of meshes for which it returns Ok",
  "all meshes",
  ["src/mesh/join_meshes.rs:join_two_meshes", "src/mesh/join_meshes.rs:join_meshes"])
p("Mesh check accepts only consistent meshes",
  "check_ids_and_kind returns Ok iff ids are sequential, every cell has the number of points of its kind and point references are in range, and Err (never a panic) otherwise; the cells of an accepted mesh whose points have ndim coordinates can be loaded by set_pad without panic. The number of coordinates is not checked (witness).",
  "every mesh",
  "all malformed meshes",
  ["src/mesh/check.rs:check_ids_and_kind", "src/mesh/check.rs:check_all"])
p("Marked point queries and sorted points are exact",
  "search_marked_points returns exactly the (sorted) ids whose marker equals the given one and satisfy the filter, Err iff there are none; search_first_marked_point returns the smallest such id; get_sorted_points returns a permutation of the selected ids sorted by z, y, x.",
  "every mesh, marker and filter",
  "all meshes",
  ["src/mesh/mesh.rs:search_marked_points", "src/mesh/mesh.rs:search_first_marked_point", "src/mesh/mesh.rs:get_sorted_points"])
p("GridCells search is sound and complete for triangles",
  "For a mesh of Tri3 (Tet4) cells, a search that returns Some(cell) returns a cell whose closed triangle contains the point (within the tolerance used by in_cell), and if any cell contains the point then some cell is returned.",
  "every triangle/tetrahedron mesh and every query point inside the grid",
  "container boundaries, large cells, all positions",
  ["src/mesh/grid_cells.rs:GridCells::search", "src/mesh/grid_cells.rs:GridCells::new"])
# ---------------------------------------------------------------- geometry
p("Barycentric inside tests are exact",
  "in_triangle / in_tetrahedron applied to the coordinates computed by triangle_coords / tetrahedron_coords is true iff the point is a convex combination of the vertices (non-degenerate simplex, exact arithmetic), irrespective of vertex orientation; these coordinates are the unique affine weights.",
  "every non-degenerate simplex and every point",
  "all positions and orientations",
  ["src/geometry/triangle.rs", "src/geometry/tetrahedron.rs"])
p("Distance functions are the Euclidean distances",
  "point_point_distance, point_line_distance, point_circle_distance and point_cylinder_distance return the distance to the nearest point of the entity (signed for circle/cylinder).",
  "all points and entities (non-degenerate)",
  "minimum over infinitely many points of the entity",
  ["src/geometry/algorithms.rs"])
# ---------------------------------------------------------------- shapes
p("Partition of unity",
  "For every geometry kind the interpolation functions add up to 1 (and their derivatives to 0) at every point of reference space.",
  "20 kinds, all reference coordinates (reals)",
  "tests sample few points",
  ["src/shapes/*.rs:calc_interp", "src/shapes/*.rs:calc_deriv"])
p("Interpolation property at nodes",
  "For every kind, interpolation function m is 1 at node m and 0 at every other node; hence calc_coords at a node's reference coordinates returns that node's coordinates for any nodal coordinates.",
  "20 kinds, all nodes, all nodal coordinates",
  "all nodal coordinates",
  ["src/shapes/*.rs:calc_interp", "src/shapes/scratchpad_calc_coords.rs"])
p("calc_deriv is the derivative of calc_interp",
  "For every kind, node and direction the value set by calc_deriv is the partial derivative of the interpolation function at every reference point.",
  "20 kinds, all nodes and directions, all reference coordinates",
  "finite differences at sample points only in tests",
  ["src/shapes/*.rs:calc_deriv"])
p("Interpolation reproduces affine fields",
  "If nodal values come from an affine function of the reference coordinates then calc_coords/interpolation returns that function at every reference point (hence rigid/affine images of the reference element are mapped exactly).",
  "20 kinds, all affine fields, all reference coordinates",
  "all affine maps",
  ["src/shapes/*.rs:calc_interp", "src/shapes/scratchpad_calc_coords.rs"])
p("Neighbouring elements are conforming (C0)",
  "On local edge e (face f) of a cell, interpolation depends only on the edge (face) nodes and coincides with the interpolation of the edge_kind (face_kind) shape over edge_node_id(e,.) (face_node_id(f,.)); so two cells that share the edge/face nodes agree along it, for any nodal coordinates.",
  "all kinds, all edges/faces, all points on them, all nodal data",
  "continuum of points and nodal data",
  ["src/shapes/enums.rs:edge_node_id", "src/shapes/enums.rs:face_node_id", "src/shapes/enums.rs:edge_kind", "src/shapes/enums.rs:face_kind", "src/shapes/*.rs:calc_interp"])
p("Local numbering tables are mutually consistent",
  "For every kind: edge_node_id_inward is the reverse of edge_node_id; face edges are face_edge_node_id composed; lower-order corners come first; interior nodes are exactly those on no edge/face; counts nnode/nedge/nface agree with table sizes; every table entry is < nnode.",
  "20 kinds, all local indices",
  "table with hundreds of entries; each used at every mesh operation",
  ["src/shapes/enums.rs", "src/shapes/*.rs:EDGE_NODE_IDS"])
p("GeoKind names round trip",
  "GeoKind::from(kind.to_string()) returns the kind, names are pairwise distinct, and every other string gives Err.",
  "all strings",
  "all strings",
  ["src/shapes/enums.rs:GeoKind::from", "src/shapes/enums.rs:GeoKind::to_string"])
p("Jacobian and gradient are the analytic ones",
  "calc_jacobian (solid case) returns det of dx/dksi of the actual mapping computed by calc_coords, its inverse is a two-sided inverse, and calc_gradient returns derivatives with respect to real coordinates: gradients of an affine nodal field are the exact constants, at every reference point with det>0.",
  "every kind with geo_ndim=space_ndim, all nodal coordinates and points with non-zero determinant",
  "all nodal coordinates",
  ["src/shapes/scratchpad_calc_jacobian.rs", "src/shapes/scratchpad_calc_gradient.rs"])
p("Normal vectors are unit and orthogonal",
  "calc_normal_vector returns a vector of length 1 orthogonal to the tangent(s) of the edge/face whenever the returned magnitude is positive, and in 2D its orientation is the tangent rotated as documented.",
  "all line-in-2D and surface-in-3D pads, all coordinates",
  "all coordinates",
  ["src/shapes/scratchpad_calc_normal_vector.rs"])
p("approximate_ksi success means small residual",
  "approximate_ksi returning Ok(it) implies that mapping the returned ksi gives a point whose distance from x is at most tol (in the norm used) and it is less than the iteration limit.",
  "all kinds, coordinates, targets and tolerances",
  "Newton iteration over all data",
  ["src/shapes/scratchpad_approximate_ksi.rs"])
p("Triangulation of a cell covers it exactly",
  "The triangles listed by triangulate for Tri/Qua kinds have total signed area equal to the signed area of the cell's boundary polygon for any node positions, and each is positively oriented on the reference cell.",
  "all Tri/Qua kinds, all node positions",
  "all node positions",
  ["src/shapes/enums.rs:triangulate_triangle_nodes", "src/shapes/scratchpad_triangulate.rs"])
# ---------------------------------------------------------------- block
p("Block subdivision creates a conforming structured mesh",
  "Block::subdivide produces prod(ndiv) cells with sequential ids whose points, shared between adjacent cells, are in one-to-one correspondence with the distinct reference grid nodes; every cell has kind.nnode() valid point ids.",
  "all division counts/weights for which the spacing exceeds the search tolerance, all target kinds",
  "all division counts",
  ["src/mesh/block.rs:Block::subdivide"])
p("Ring transformation stays inside the ring",
  "With set_transform_into_ring the generated points satisfy rmin<=r<=rmax, x>=0 and y>=0 and the corners of the block map to the corners of the quarter ring.",
  "all radii 0<rmin<rmax and all reference coordinates in [-1,1]",
  "continuum",
  ["src/mesh/block.rs:map_coords_cylindrical", "src/mesh/block.rs:set_transform_into_ring"])
p("Edge/face constraints put points on the circle/cylinder",
  "Points of constrained edges/faces end at the constraint radius from the center/axis (exact arithmetic) on the ray from the center/axis through their unconstrained position, corner nodes away from the constrained sides are not moved, and subdivide fails only if a point of a constrained side is at the center. If no two adjacent sides are constrained, the position of every node of every kind of cell is determined: nodes of an edge, off the constrained sides, with an end that was really moved are put on the straight line between the ends, interior nodes are interpolated from the nodes of the edges, all others stay where the map of the block puts them. (Where two constrained sides meet, only one constraint is satisfied.)",
  "all constraints and all points",
  "continuum",
  ["src/mesh/block.rs:handle_constraints", "src/mesh/block.rs:apply_constraint_2d", "src/mesh/block.rs:apply_constraint_3d"])
# ---------------------------------------------------------------- convert, triangulate, vtu
p("Order conversion keeps topology and corners",
  "convert_2d (when Ok) returns a mesh with the same cells (id, marker, same corner coordinates and markers) with the target kind, all point references valid, sequential ids, every point used, one shared set of nodes inside each edge of two cells and no other sharing; new points on an edge have the marker of the middle node of the edge.",
  "every 2D mesh of one kind, every target kind of the same class",
  "all meshes",
  ["src/mesh/convert_2d.rs:convert_2d"])
p("The VTU file describes the mesh",
  "write_vtu writes a VTU document with the numbers of points and cells, three coordinates per point (z = 0 in 2D), for each cell its points, offsets that are the running totals, the VTK type and the markers; two meshes with the same file have the same points and cells; the nodes are in the order of the VTK cell type; it errs iff a cell has no VTK type or the mesh has no cells.",
  "every mesh",
  "all meshes",
  ["src/mesh/paraview.rs:write_vtu"])
# ---------------------------------------------------------------- integ
p("Integration points integrate polynomials up to their degree",
  "For every built-in rule, the weighted sum over the table (exact binary64 values) of a monomial up to the degree of the rule differs from the exact integral over the reference element by at most the rounding of the table; so for any polynomial of that degree the error is at most 2e-14 times the sum of |coefficients|. The points lie in the cell, the weights add up to its size and the default rule of a kind integrates the products of its interpolation functions.",
  "all built-in rules, all polynomials up to the degree",
  "all polynomials",
  ["src/integ/gauss.rs"])
p("Consistent load vectors conserve the total",
  "The components of vec_01_ns (per direction vec_02_nv) sum to the quadrature of the source over the cell, whatever the geometry; vec_03_bv sums to zero.",
  "all kinds, geometries, rules and source functions",
  "all data",
  ["src/integ/vec_01_ns.rs", "src/integ/vec_02_nv.rs", "src/integ/vec_03_bv.rs"])
p("Element matrices have their algebraic structure",
  "mat_01_nsn is symmetric and positive semi-definite for non-negative coefficients; mat_03_btb with symmetric tensor is symmetric with zero row sums; mat_10_bdb is symmetric when D is.",
  "all kinds, geometries, rules and coefficients",
  "all data",
  ["src/integ/mat_01_nsn.rs", "src/integ/mat_03_btb.rs", "src/integ/mat_10_bdb.rs"])
p("The two stiffness implementations agree",
  "mat_10_bdb and mat_10_bdb_alt add the same numbers (exact arithmetic) in 2D, 3D and axisymmetric mode.",
  "all gradients, interpolation values, radii and D matrices",
  "all data",
  ["src/integ/mat_10_bdb.rs:mat_10_bdb", "src/integ/mat_10_bdb.rs:mat_10_bdb_alt"])
p("Failed block configuration leaves the block unchanged",
  "set_ndiv and set_div_weights give the requested divisions and change nothing else; a call that returns Err leaves the block as it was. (False of set_ndiv: directions before the first zero are already updated.)",
  "all blocks and division arrays",
  "error paths with partial updates",
  ["src/mesh/block.rs:set_ndiv"])
p("Limits and bounding boxes are exact",
  "get_limits and get_cell_bounding_box return, in every direction, the least and the greatest coordinate among the points of the mesh (of the cell).",
  "every mesh with at least one point, every cell",
  "all coordinates and orders of points",
  ["src/mesh/mesh.rs:get_limits", "src/mesh/mesh.rs:get_cell_bounding_box"])
p("Areas and angles of triangles are the geometric ones",
  "Triangle2d::signed_area has the magnitude base times height over two, its sign is the orientation (zero iff the vertices are collinear), and the internal angles of a triangle with distinct vertices are in [0, pi], are the angles between its edges and sum to pi.",
  "every triangle (exact arithmetic)",
  "all vertex positions, including flat triangles",
  ["src/geometry/entities.rs:signed_area", "src/geometry/entities.rs:internal_angles"])
p("Number of divisions of a grid",
  "num_divisions gives the longest direction ndiv_long divisions and every other direction between ndiv_min and ndiv_long: as many as possible with divisions at least as wide as in the longest direction (or ndiv_min); it returns Err exactly for the invalid inputs.",
  "every box, ndiv_min, ndiv_long (exact arithmetic)",
  "all proportions of the box, ties between directions",
  ["src/util/num_divisions.rs:num_divisions"])
p("The search grid of the features of a mesh",
  "Features::new can make its search grid and insert every feature point exactly when the feature points do not all have the same coordinate in some direction; otherwise (for example a single horizontal cable, which is a valid mesh) it panics.",
  "every valid mesh, with or without interior features",
  "all meshes; flat ones are not tested",
  ["src/mesh/features.rs:new", "src/util/grid_search.rs:new"])
p("Joining meshes keeps the markers",
  "After joining A and B the marked edges (faces) are sorted, without repetition, and an edge (face) is listed with marker k iff the last marked edge of A on these points has marker k, or A has none and the first marked edge of B mapped to these points has marker k. When several meshes are joined, the last marked edge (face) of the first mesh decides, and otherwise the first one in the following meshes, in the order of the meshes; every point comes from one of the meshes. A marked triangular face in B makes join_two_meshes panic.",
  "every pair and every list of meshes for which it returns Ok; every B with a triangular marked face",
  "all combinations of markers and merges",
  ["src/mesh/join_meshes.rs:join_two_meshes", "src/mesh/join_meshes.rs:join_meshes"])
p("Jacobian check of a mesh",
  "check_jacobian of a consistent mesh returns Ok exactly when every cell fits in the space and every solid cell has a determinant of the Jacobian above the threshold of the inversion at the reference point (1/3, 1/3, ..), and otherwise returns Err (no panic); it does not follow that the determinant is positive in the whole cell. check_all succeeds exactly when the mesh is consistent and passes this check.",
  "every consistent mesh with complete coordinates",
  "all meshes and coordinates",
  ["src/mesh/check.rs:check_jacobian", "src/mesh/check.rs:check_all"])
p("Marked edges and faces of a block",
  "An edge (face) of a cell of the generated mesh is marked with k exactly when its corners are on an edge (face) of the block with marker k; markers are stored with sorted point ids.",
  "every block, target kind and divisions wider than the tolerance",
  "all divisions, kinds and combinations of markers",
  ["src/mesh/block.rs:subdivide", "src/mesh/block.rs:set_edge_marker", "src/mesh/block.rs:set_face_marker"])
p("Construction of a block",
  "Block::new accepts 4 or 8 points in 2D and 8 or 20 in 3D with positive determinant of the Jacobian at the centre; missing middle nodes are put halfway, there are two divisions per direction and no constraints, markers or ring; everything else is an Err.",
  "all coordinate matrices",
  "all coordinates",
  ["src/mesh/block.rs:new"])
p("Internal forces and fluxes",
  "vec_04_bt adds to node m, direction i, the integral of sigma_ij B_mj (and the hoop term in axisymmetric problems); the forces have no resultant and no moment; with the stress D : eps(u) they are the matrix of mat_10_bdb times u, and with the flux T . grad(phi) the vector of vec_03_bv is the matrix of mat_03_btb times phi.",
  "all kinds, geometries, rules, stresses, moduli and displacements",
  "all data",
  ["src/integ/vec_04_bt.rs", "src/integ/vec_03_bv.rs", "src/integ/mat_10_bdb.rs", "src/integ/mat_03_btb.rs"])
p("Sign and null space of the stiffness matrix",
  "The matrix of mat_10_bdb is positive semi-definite when D is and the weighted volumes are not negative; translations and small rotations cause no forces (axisymmetric: translations along the axis).",
  "all kinds, geometries, rules and moduli",
  "all data",
  ["src/integ/mat_10_bdb.rs:mat_10_bdb"])
p("Coupling matrices",
  "mat_02_bvn, mat_04_nsb ... mat_09_nvb add the integrals of their documentation in full index form at the rows and columns after (ii0, jj0) and change nothing else; mat_04_nsb and mat_07_bsn are transposes.",
  "all kinds of both geometries, rules, coefficients and starting positions",
  "all data",
  ["src/integ/mat_02_bvn.rs", "src/integ/mat_04_nsb.rs", "src/integ/mat_05_btn.rs", "src/integ/mat_06_nvn.rs", "src/integ/mat_07_bsn.rs", "src/integ/mat_08_ntn.rs", "src/integ/mat_09_nvb.rs"])
p("Integrals over boundaries",
  "vec_01_ns_bry, vec_02_nv_bry and mat_01_nsn_bry integrate over a line in 2D or a surface in 3D with the magnitude of the normal vector and pass the unit normal vector to the closure; the components add up to the integral of the source.",
  "all kinds, geometries, rules and source functions",
  "all data",
  ["src/integ/vec_01_ns_bry.rs", "src/integ/vec_02_nv_bry.rs", "src/integ/mat_01_nsn_bry.rs"])
p("When the integration functions return a value",
  "With closures that return a value, an integration function returns a value exactly when the vector or matrix has room for the block, the geometry fits (solid; line in 2D or surface in 3D for boundaries; 2D when axisymmetric), the coordinates are set and the determinant exceeds the threshold at the integration points; otherwise it returns an Err; with closures that do not panic it never panics.",
  "all arguments",
  "all arguments",
  ["src/integ/common_args.rs", "src/integ/vec_01_ns.rs", "src/integ/mat_10_bdb.rs"])
p("Integration of a scalar field",
  "scalar_field returns the sum of s J w; it is the integral (up to the rounding of the weights) when s J is a polynomial within the degree of the rule, in particular the length, area or volume of Lin2, Tri3, Qua4 and Tet4 elements for s = 1; over a surface in 3D it does not depend on the surface and has the wrong sign.",
  "all kinds, geometries, rules and functions",
  "all data",
  ["src/integ/scalar_field.rs"])
p("Order conversion keeps positions and shapes",
  "Every node of a converted mesh is at the image of its reference coordinates under the interpolation of the original cell (of each of the cells that share it), and when the target kind can represent the functions of the original kind every cell keeps its shape: the two maps from reference coordinates are equal.",
  "every conforming 2D mesh of one kind whose cells are numbered in the same sense, every target kind of the same class",
  "all meshes, all reference coordinates",
  ["src/mesh/convert_2d.rs:convert_2d"])
p("When a mesh can be converted",
  "convert_2d succeeds exactly when the mesh is 2D, has cells, all of one kind, of the class triangle or quadrilateral, and the target is of the same class; other meshes are reported as errors.",
  "every valid mesh, every target kind",
  "all meshes",
  ["src/mesh/convert_2d.rs:convert_2d"])
p("Coordinates and interpolation at the integration points",
  "get_points_coords returns the images of the integration points under the isoparametric map (an error before the coordinates of the nodes are set). get_interp_matrix returns the matrix of the interpolation functions at the points: rows add up to one, nodal values of a field are carried to its values at the points, those of an affine function of the coordinates to its values at the coordinates of the points.",
  "all kinds, geometries, rules and fields",
  "all data",
  ["src/recovery/get_point_coords.rs:get_points_coords", "src/recovery/get_interp_matrix.rs:get_interp_matrix"])
p("Extrapolation from integration points to nodes",
  "get_extrap_matrix with a rule of the class of the element succeeds whenever the library inverts the matrix it is given (never singular, no missing table). With at least as many points as nodes it returns the nodal values of any field sampled at the points, and the least squares fit in general; with at most as many points as nodes the extrapolated field takes the given values at the points; affine fields are recovered; with one point the value is distributed in proportion to the interpolation functions.",
  "all kinds, all rules of the class of the kind, all values",
  "all kinds with all rules, all values",
  ["src/recovery/get_extrap_matrix.rs:get_extrap_matrix", "src/recovery/get_extrap_matrix.rs:get_tr_pinv_hxi"])
p("Triangulation of a surface",
  "Triangulation::from_surface gives one point for every mesh point used by the triangles and quadrilaterals of the surface and for every extra node of each of them, with its coordinates, in order of first use, and the triangles of the tables cell by cell. Other cells are ignored. Areas projected on two coordinates are kept, and neighbouring cells with the same nodes on a common edge are glued without gaps (closed surfaces stay closed). It returns exactly when the cells have the points of their kinds, all in the mesh, and panics otherwise. Scratchpad::triangulate makes the corresponding calls of its callback for one element, errors for other kinds.",
  "every mesh, every list of cells, every callback",
  "all meshes and surfaces of any size",
  ["src/mesh/triangulate_surface.rs:from_surface", "src/shapes/scratchpad_triangulate.rs:triangulate"])
p("Triangulation of the boundary of solids",
  "Features::triangulate_3d_boundary triangulates exactly the faces that belong to one solid only, each once, whatever features were extracted and whatever the order of the hash maps; for conforming solids the triangulation is closed (every edge is passed as often in one direction as in the other).",
  "every valid 3D mesh without quadratic or cubic tetrahedra, all iteration orders",
  "all meshes, all iteration orders",
  ["src/mesh/features.rs:triangulate_3d_boundary", "src/mesh/triangulate_surface.rs:from_surface"])
p("Check of overlapping points",
  "Mesh::check_overlapping_points, for a valid mesh with extent along every axis and a positive tolerance that is small for the extent, returns either Ok or the error about overlapping points. The error is returned only if two distinct points are within sqrt(ndim) times the tolerance, and always if two points have the same coordinates, whatever the iteration orders of the hash maps of the containers. A mesh without extent along some axis is always an error. Points at different sides of the boundary of two containers may be missed, however near they are.",
  "every valid mesh, every tolerance, all iteration orders of each container",
  "all meshes and all iteration orders of hash maps",
  ["src/mesh/check.rs:check_overlapping_points", "src/mesh/mesh.rs:get_limits", "src/util/grid_search.rs:search"])
p("Structured rectangle",
  "Structured::rectangle with acceptable arguments (divisions coarser than the tolerance of the searches, blocks with enough area) returns a plane mesh without overlapping or unused points whose cells are exactly the rectangles asked for: layer by layer from the bottom, left column before right column, x running fastest, each with the target kind, the marker of its layer and its nodes at the positions of the reference cell; they do not overlap, cover the whole region and are (na + nb) times the sum of ny. Renumbering keeps this, but is not applied with one layer and no xb. Wrong arguments are errors, and an accepted call has ascending y, divisions of at least one and xa < xb < xc. A layer without divisions, or too thin, panics.",
  "all limits, divisions, numbers of layers and markers, all kinds, all iteration orders of hash maps",
  "all sizes and numbers of layers, all iteration orders",
  ["src/mesh/generators_qua_hex.rs:rectangle", "src/mesh/block.rs:subdivide", "src/mesh/join_meshes.rs:join_meshes"])
p("Quarter rings",
  "Structured::quarter_ring_2d and quarter_ring_3d with acceptable arguments return a mesh without unused or marked points whose cells are exactly the sectors asked for: the radius, divided in proportion to the weights, runs fastest, then the angle from 0 to pi/2 and then z, each in equal parts; every node, including middle ones, is where the reference cell goes in cylindrical coordinates (so nodes of the outer and inner arcs are exactly on the circles). With a positive inner radius no two points coincide. Renumbering keeps this. Empty or small weights, no divisions, radii or thickness in the wrong order, and kinds of another class are errors. A zero inner radius is accepted and gives overlapping points.",
  "all radii, weights, divisions, all kinds, all iteration orders of hash maps",
  "all sizes, weights and kinds, all iteration orders",
  ["src/mesh/generators_qua_hex.rs:quarter_ring_2d", "src/mesh/generators_qua_hex.rs:quarter_ring_3d", "src/mesh/block.rs:subdivide", "src/mesh/block.rs:new_cube"])
p("Meshes of collections of blocks",
  "Structured::from_blocks_2d and from_blocks_3d, when they return a mesh, were given at least two blocks with numbers of existing points, weights that add up to at least one and a kind of the right class, and the mesh, without unused points, has exactly the cells asked for: block by block, as many as the weights (two in each direction if some are missing), with the marker of the block and every node where the bilinear or trilinear map of the block puts it or, in a block with a condition, where the rules for moved sides put it (within the tolerance of the searches if it was merged with a point of an earlier block). Without renumbering the marked edges and faces of the mesh are exactly those of cells on a marked edge or face of a block; the last entry of the list of marks decides for a block, the first block for a cell. Good blocks of enough area without moved nodes close to a centre are always meshed; if moreover all nodes are placed either together or further apart than the tolerance and the blocks enclose their points, a mesh results in which no two points are at the same place and every node is exactly where its block puts it. A single block is always an error.",
  "all collections of blocks, weights, marks, conditions and kinds, all iteration orders of hash maps",
  "all collections, all iteration orders",
  ["src/mesh/generators_qua_hex.rs:from_blocks_2d", "src/mesh/generators_qua_hex.rs:from_blocks_3d", "src/mesh/block.rs:subdivide", "src/mesh/join_meshes.rs:join_meshes"])
p("Quarter disks and plates with a hole",
  "Structured::quarter_disk_2d_a, quarter_disk_2d_b, quarter_disk_3d_a, quarter_disk_3d_b, quarter_plate_hole_2d and quarter_plate_hole_3d, when they return a mesh, were given at least one division everywhere, a kind of the right class and (B-versions) an outer radius beyond the inner one; the mesh, without marks and without unused points, has na na + 2 na nb, 2 (na + nb) n, or nz times as many cells, the three or four blocks one after the other, every node where the map of the block between the corners in polar coordinates and the rules for the circles put it, and all corners and edge nodes on a curved side at the given radius, within the tolerance of the searches. No divisions, a kind of the wrong class, radii in the wrong order and flat blocks are errors. Otherwise all blocks are meshed exactly. With linear cells and any number of divisions not finer than the tolerance, the A-versions succeed, no two points are at the same place and every node is exactly where the block puts it. With one linear cell per block the B-versions and the plates do so as well, for all sizes whose nodes are not closer than the tolerance.",
  "all radii, thicknesses, heights, divisions and kinds, all iteration orders of hash maps",
  "all sizes and divisions, all iteration orders",
  ["src/mesh/generators_qua_hex.rs:quarter_disk_2d_a", "src/mesh/generators_qua_hex.rs:quarter_disk_2d_b", "src/mesh/generators_qua_hex.rs:quarter_disk_3d_a", "src/mesh/generators_qua_hex.rs:quarter_disk_3d_b", "src/mesh/generators_qua_hex.rs:quarter_plate_hole_2d", "src/mesh/generators_qua_hex.rs:quarter_plate_hole_3d"])

p("Closed forms of element vectors and matrices",
  "AnalyticalTri3 and AnalyticalTet4, built from a pad of their kind (other kinds panic), hold the area or volume, the gradients of the interpolation functions and the deformation matrix in Mandel components; every vector and matrix they return (vec_01_ns, vec_02_nv, vec_03_bv, vec_04_bt, mat_01_nsn to mat_10_bdb, with the axisymmetric variants and the ones for linear and bilinear functions) has as entries exactly the integrals over the element that the numerical functions of the same name approximate, for all arguments. The integrals along a side of the triangle follow the order of the nodes of that side (a side number above 2 panics). The matrices of AnalyticalQua4 and AnalyticalQua8 are those of every rectangle with sides 2a and 2b along the axes, including the matrices that couple a Qua8 with a Qua4.",
  "all triangles with an area, tetrahedra with a volume and rectangles, all scalars, vectors, tensors and moduli",
  "all element shapes and all arguments",
  ["src/integ/analytical_tri3.rs:AnalyticalTri3", "src/integ/analytical_tet4.rs:AnalyticalTet4", "src/integ/analytical_qua4.rs:AnalyticalQua4", "src/integ/analytical_qua8.rs:AnalyticalQua8"])

p("Meshes from the output of Triangle and Tetgen",
  "Unstructured::from_trigen and from_tetgen return a mesh with exactly the points, triangles or tetrahedra (Tri6 or Tet10 if the output has 6 or 10 nodes per cell), cell markers and, except those with marker zero, the marked segments or faces of the output, in the same order and with the same numbers; the point marker 1 that Tetgen gives to unmarked boundary points becomes 0. If the output uses existing points only, the mesh is consistent. An output with fewer than two points or without cells panics.",
  "all outputs of the generators",
  "all outputs",
  ["src/mesh/generators_tri_tet.rs:from_trigen", "src/mesh/generators_tri_tet.rs:from_tetgen"])
p("Input of Triangle made from a mesh",
  "For a consistent two-dimensional mesh whose edges have two points and which has three edges at least, Unstructured::call_trigen gives Triangle all points with their markers, every edge of the mesh exactly once (sorted, with the numbers in the sense of the first cell that has it and the marker of the last matching entry of the marked edges), one region per cell at the mean of the points of the cell with the marker of the cell and the maximum area listed for it, and all holes, and returns what from_trigen makes of the output (renumbered on request). Meshes that are not two-dimensional or have an edge with more points in its first cell are errors. The point of the region of a cell that is not convex may be outside of it.",
  "all meshes, markers, holes, maps of maximum areas and options, all iteration orders of hash maps, all behaviours of the generator",
  "all meshes and all iteration orders",
  ["src/mesh/generators_tri_tet.rs:call_trigen", "src/mesh/features.rs:new"])
p("Input of Tetgen made from a mesh",
  "For a consistent three-dimensional mesh with four points at least and without Tet10 and Tet20 cells, Unstructured::call_tetgen gives Tetgen all points with their markers, one facet for every two-dimensional cell (with its marker and points), followed by one facet for every face of the solids, exactly once and sorted (with the points in the sense of the first solid that has it and the marker of the last matching entry of the marked faces), the regions with the maximum volume listed for their marker, and the holes, and returns what from_tetgen makes of the output (renumbered on request). Fewer than four facets, facets with fewer than three points and meshes that are not three-dimensional are errors.",
  "all meshes, markers, regions, holes, maps of maximum volumes and options, all iteration orders of hash maps, all behaviours of the generator",
  "all meshes and all iteration orders",
  ["src/mesh/generators_tri_tet.rs:call_tetgen", "src/mesh/features.rs:new"])
p("Unstructured quarter rings in 2D",
  "Unstructured::quarter_ring_2d gives Triangle a closed polygon of 2 nr + 2 na different corners around the ring, the corners A, C, D, B marked -1, -3, -4, -2 and every side marked according to the axis or circle both of its ends lie on, and one region whose point is inside of the polygon if the ring is thicker than 0.0002 (in thinner rings it may be outside). The mesh returned for Tri3 and Tri6 has the cells and marked edges of the output and its points, those marked -5 or -6 moved along the radius to the inner or outer circle; renumber gives renumber_mesh of that mesh (so the marked edges keep old numbers and may leave their circle). For Tri10 and Tri15 the mesh is consistent, has the same cells with the target kind, all middle nodes of sides on an arc are marked and on the circle, no marked edges remain and renumber has no effect. No divisions, kinds of another class and errors of the generator are errors.",
  "all radii and divisions, all outputs of the generator, all iteration orders of hash maps",
  "all sizes, divisions and outputs",
  ["src/mesh/generators_tri_tet.rs:quarter_ring_2d", "src/mesh/generators_tri_tet.rs:apply_constraints", "src/mesh/convert_2d.rs:convert_2d"])
p("Unstructured quarter rings in 3D",
  "Unstructured::quarter_ring_3d gives Tetgen the 4 nr + 4 na points of two levels and 4 + 2 na facets that form a closed surface (every side of a facet belongs to exactly one other facet), all points of a facet lying on the plane or cylinder its marker stands for, and one region. The mesh has the cells and faces of the output and its points; the marker of a point is the greatest of its own and those of its faces (zero only if there are none), and points marked -5 or -6 are moved along the radius to the cylinders, their height unchanged. Renumber gives renumber_mesh of that mesh. No divisions, a thickness that is not positive and kinds other than Tet4 and Tet10 are errors. The point of the region may be above a solid with a thickness below 0.0001.",
  "all radii, thicknesses and divisions, all outputs of the generator",
  "all sizes, divisions and outputs",
  ["src/mesh/generators_tri_tet.rs:quarter_ring_3d", "src/mesh/generators_tri_tet.rs:apply_constraints"])

p("Check of normal vectors",
  "Mesh::check_2d_edge_normals (2D) and Mesh::check_face_normals (3D) return Ok exactly when every key of the solutions is a key of the map of edges (faces), the magnitude given for it differs from that of the normal vector at the middle of the edge (at the reference point zero of the face) by at most the tolerance, and so does every component of the unit normal. Otherwise the first wrong entry in the order of iteration decides: an unknown key and a wrong direction are errors, a wrong magnitude is a panic although the functions return a Result. The maps of Features meet the hypotheses.",
  "all meshes, edges, faces, solutions and tolerances, all iteration orders of the solutions",
  "all meshes and all real coordinates",
  ["src/mesh/check.rs:check_2d_edge_normals", "src/mesh/check.rs:check_face_normals"])
p("Normal vectors of boundaries point outwards",
  "For every edge of Features in 2D and every face in 3D (of all kinds of cells, curved or straight), the scratchpad made from its kind and points gives, at every point of the edge or face, the position of a boundary point of a cell with that edge or face (the only one for boundary features), and calc_normal_vector gives there a vector of positive magnitude that points out of this cell wherever the determinant of the Jacobian of the cell is positive (into it where it is negative): for every point inside of the reference cell, whoever moves from the boundary point towards it moves against the normal vector at first.",
  "all consistent meshes, all kinds, all coordinates, all points of the edges and faces, all directions into the cell",
  "all meshes, coordinates and points",
  ["src/mesh/features.rs:new", "src/shapes/scratchpad_calc_normal_vector.rs:calc_normal_vector", "src/shapes/enums.rs:edge_node_id", "src/shapes/enums.rs:face_node_id"])

p("Drawing of cells",
  "Mesh::draw_cell succeeds for every cell of a consistent mesh (the number of no cell is an error) and only appends to the canvas. In the plane the outline of a cell is a single path with one piece per edge, in order, and each piece is, parameter by parameter, the edge of the isoparametric cell (edges with two, three and four nodes: straight lines, quadratic and cubic Bezier curves are exact); an edge with five nodes is replaced by the cubic through its points at -1, -1/3, 1/3 and 1, and the difference is its fourth-degree part (so the curve may miss nodes of the cell). In space every edge is the polygon through its nodes, in the order of the edge; solids give one path per edge, shells one path around the cell.",
  "all consistent meshes, all kinds of cells, all coordinates, all points of the edges",
  "all kinds, all coordinates and all parameters of the curves",
  ["src/mesh/draw_cell.rs:draw_cell", "src/mesh/draw_cell.rs:add_curve"])
p("Drawing of a single element",
  "Scratchpad::draw_shape draws, for every pad with all coordinates set, one polygon per edge of the cell (a single one for lines), with ten sides whose corners are the points of the isoparametric edge at equal steps of its parameter, from the first to the second node. A pad with missing coordinates is an error.",
  "all pads of all kinds and coordinates, in two and three dimensions",
  "all kinds and all coordinates",
  ["src/shapes/scratchpad_draw_shape.rs:draw_shape", "src/shapes/scratchpad_draw_shape.rs:draw_edge"])

p("Drawing of normal vectors",
  "Draw::normal_vectors succeeds for the features of every consistent mesh. In the plane it draws exactly one arrow for each edge that belongs to a single cell; the arrow starts at the middle of the edge (at parameter zero of the isoparametric edge), points out of the cell wherever the cell is not inverted, and its length is m_normal_vector times the diagonal of the box around the points of the features. In space it draws exactly one such arrow for each face that belongs to a single solid (starting at parameter (0,0), or (1/3,1/3) on triangles), followed by one for each two-dimensional cell, orthogonal to it and right-handed with its tangents. Edges and faces shared by cells get none, even if the features hold them.",
  "all consistent meshes, kinds, coordinates and multipliers, all iteration orders of hash maps, boundary features and all features",
  "all meshes, coordinates and iteration orders",
  ["src/mesh/draw.rs:normal_vectors", "src/mesh/features.rs:new"])
p("Drawing of marked edges and faces",
  "Draw::edge_markers shows, in the plane, the marker of exactly those marked edges (in their order) that are edges of the features; the label is in the middle of a line that starts at the middle of the edge, points out of the first cell with this edge, and is m_normal_vector_marker times the diagonal of the box around the points long; the angle of the text is that of the line up to the tolerance and never upside down. In space the labels of all marked edges are at the middle of their end points. Draw::face_markers shows the marked faces that are faces of the features, with lines that point out of the solid. Marked edges shared by two cells are therefore not shown by Draw::all.",
  "all consistent meshes, markers, kinds, coordinates, multipliers and positive tolerances, all iteration orders",
  "all meshes, coordinates and iteration orders",
  ["src/mesh/draw.rs:edge_markers", "src/mesh/draw.rs:face_markers"])
p("Labels of points and cells",
  "Draw::point_ids puts the number of every point at the point, followed by its marker if markers are wanted and the marker is not zero. Draw::cell_ids puts the number of every cell (and its marker, zero or not, if wanted) at a fixed convex combination of its nodes (the mean; three quarters of the first and one quarter of the third node for Qua9 and Qua17; the middle of the first and last node for Tri10). For all kinds of two or three dimensions the label of a cell that is an affine image of the reference cell is never on one of its nodes; for a straight Lin3 it is on the middle node.",
  "all consistent meshes, all kinds and coordinates",
  "all kinds and all coordinates",
  ["src/mesh/draw.rs:point_dots", "src/mesh/draw.rs:point_ids", "src/mesh/draw.rs:cell_ids"])
p("Picture of a mesh",
  "Draw::cells draws the outlines of all cells, in order, lines on a canvas of their own, and in space a triangulation of the two-dimensional cells and nothing else. Draw::boundary_edges_3d draws exactly once, as a straight line between its end points, each edge of the faces that belong to a single solid. Draw::boundary_faces draws a triangulation of exactly those faces. Draw::all draws exactly the parts asked for, each as the function for this part draws it with the boundary features of the mesh, and succeeds for every consistent mesh (in space the points of marked edges must exist).",
  "all consistent meshes, all combinations of options, all iteration orders of hash maps",
  "all meshes, options and iteration orders",
  ["src/mesh/draw.rs:cells", "src/mesh/draw.rs:boundary_edges_3d", "src/mesh/draw.rs:boundary_faces", "src/mesh/draw.rs:all"])

p("Boundary and neighbours in the mesh of a block",
  "In the mesh Block::subdivide makes, an edge (in 2D) or face (in 3D) of a cell belongs to that cell and to the next cell in the direction of that edge or face, where it is the opposite one; it belongs to no other cell, and to one cell only exactly at the sides of the block. Features::new lists exactly these as the boundary: 2 (nx + ny) edges in 2D, 2 (nx ny + ny nz + nx nz) faces in 3D. Features::get_neighbors_2d gives for each cell exactly the next cells in the four directions, with the local edges on both sides. The cell numbers are those of the structured order.",
  "all blocks (any divisions, weights, constraints, ring), all target kinds, all orders in which the search grid and the maps list their entries",
  "all numbers of divisions and all iteration orders",
  ["src/mesh/block.rs:subdivide", "src/mesh/features.rs:new", "src/mesh/features.rs:get_neighbors_2d"])
p("Markers of the sides of a block",
  "After Block::set_edge_marker (2D) or set_face_marker (3D) and subdivide, every edge (face) of Features that is at a side of the block has the marker of that side (zero if it has none), every other edge (face) has marker zero. Features::search_marked_edges and search_marked_faces return exactly the edges (faces) at the sides with the given marker; their number is the sum of the numbers of cells along these sides.",
  "all blocks with any markers on any sides, all divisions, all target kinds, all iteration orders, boundary features and all features",
  "all numbers of divisions, markers and iteration orders",
  ["src/mesh/block.rs:set_edge_marker", "src/mesh/block.rs:set_face_marker", "src/mesh/block.rs:subdivide", "src/mesh/features.rs:search_marked_edges", "src/mesh/features.rs:search_marked_faces"])

p("The boundary of a mesh is closed",
  "If the cells of a mesh run through their common edges (2D) or faces (3D) in opposite directions, every quantity of edges (faces) that changes its sign with the direction has the same sum over the boundary Features::new lists as over the edges (faces) of all cells: the boundary edges and faces are listed in the direction of their cell and what is left out cancels. So as many boundary edges start as end at every point (the boundary consists of closed circuits); the normal vectors of calc_normal_vector, integrated over the boundary edges of any kinds of cells (curved ones too), add up to zero; the area vectors of the boundary faces add up to zero, and for Tet4 and Hex8 these are magnitude times unit normal at the reference centre times the reference area. The meshes of Block::subdivide meet the hypothesis. Cells of positive area that overlap do not: their boundary need not be closed.",
  "all consistent meshes whose cells have opposite directions on common edges or faces (quadratic and larger tetrahedra excluded in 3D), all coordinates, all iteration orders; all blocks",
  "all meshes, coordinates and iteration orders",
  ["src/mesh/features.rs:new", "src/shapes/scratchpad_calc_normal_vector.rs:calc_normal_vector", "src/shapes/enums.rs:edge_node_id", "src/shapes/enums.rs:face_node_id", "src/mesh/block.rs:subdivide"])
p("Areas and volumes from the boundary",
  "In a mesh of Tri3 and Qua4 cells that run through their common edges in opposite directions, the areas of the cells (half the cross product of two sides of a triangle, of the diagonals of a quadrilateral: the areas the integrals of this library reproduce, C68) add up to the half sum of x dy - y dx along the boundary edges listed by Features::new (the edges run around the cells the other way round, hence the sign). In a mesh of Tet4 cells the volumes add up to one sixth of the sum of the triple products of the corners of the boundary faces. So these sums depend on the boundary only.",
  "all consistent meshes of these kinds with opposite directions on common edges or faces, all coordinates (inverted cells count negative), all iteration orders",
  "all meshes and all real coordinates",
  ["src/mesh/features.rs:new", "src/shapes/scratchpad_calc_jacobian.rs:calc_jacobian", "src/shapes/enums.rs:edge_node_id", "src/shapes/enums.rs:face_node_id"])

p("Renumbering points does not change the topology",
  "After Mesh::renumber_points the features of the mesh are those of the old mesh with the points called by their new numbers: Features lists the same edges (2D: with the same kind and the same points in the same order; 3D: the same pairs of end points), the same faces (same kind, same points in the same order), the same set of points and the same limits; get_neighbors_2d gives the same neighbours of each cell; the graph has an edge between two points exactly when the old graph has; every cell has the same scratchpad (so all integrals, normals and the Jacobian check are the same). The markers of edges and faces do not follow: Mesh keeps the old numbers of the marked edges (C09), so features lose their marker or others get it.",
  "all consistent meshes, all renumberings, all iteration orders of the maps (different ones before and after), boundary features and all features",
  "all meshes, permutations and iteration orders",
  ["src/mesh/mesh.rs:renumber_points", "src/mesh/features.rs:new", "src/mesh/features.rs:get_neighbors_2d", "src/graph/graph_und.rs:from_mesh", "src/mesh/mesh.rs:set_pad"])

p("Uniform pressure along the boundary is in equilibrium",
  "If vec_02_nv_bry is called for every edge (face) of the boundary listed by Features::new with the closure pressure times unit normal vector, the nodal forces of all of them add up to zero in each direction, and their moments about the origin (2D) or about each axis (3D) too, up to the rounding of the tables of integration points (an explicit bound proportional to the pressure and the coordinates). For one edge the forces add up to pressure times the edge turned by 90 degrees whatever the shape of the edge between its ends, for one Tri3 or Qua4 face (also a warped one) to pressure times area vector; the moments of one face add up to pressure times a line integral along its circuit. With the default rules every one of these calls succeeds: the scratchpads, rules and dimensions fit.",
  "all consistent 2D meshes of all kinds of cells (curved edges too) and all consistent 3D meshes of Tet4 and Hex8 cells that run through their common edges (faces) in opposite directions; all coordinates, pressures, thicknesses, all rules with enough points, all iteration orders",
  "all meshes, coordinates and pressures; the sum is of terms with rounded weights",
  ["src/integ/vec_02_nv_bry.rs:vec_02_nv_bry", "src/mesh/features.rs:new", "src/shapes/scratchpad_calc_normal_vector.rs:calc_normal_vector"])

p("Order conversion keeps edges, boundary and neighbours",
  "Mesh::convert_2d makes every corner of the cells one corner of the new cells, with the same position and marker; different corners stay different. Features::new lists for the new mesh the same edges as for the old one (all of them, or those of the boundary): same number, same end points, in the same direction, with the edge kind of the target. get_neighbors_2d gives the same neighbours of every cell. The new cells run through common edges in opposite directions exactly if the old cells do, so the boundary of the new mesh is closed (C96) and uniform pressure on it is in equilibrium (C99) as well.",
  "all convertible meshes, all targets of the class, all iteration orders of the maps (different ones in the conversion and for both features), boundary features and all features; also meshes whose edges are shared by more than two cells",
  "all meshes, targets and iteration orders",
  ["src/mesh/convert_2d.rs:convert_2d", "src/mesh/features.rs:new", "src/mesh/features.rs:get_neighbors_2d"])

p("Edges, boundary and neighbours of joined meshes",
  "Let join_two_meshes give the mesh m for the meshes a and b, the points of b being farther apart than twice the tolerance of the search (sqrt(ndim)/10000). Then different points of b are different points of m (a point of b that is at the place of a point of a on or inside the limits of the boundary of a becomes this point). In two dimensions the edges listed by Features::new for m are the edges of a and the edges of b; the boundary of m consists of the boundary edges of a that no edge of b meets and the boundary edges of b that meet no edge of a. In three dimensions the same holds for faces (without Tet10 and Tet20). The neighbours that get_neighbors_2d gives in m are the neighbours in a, the neighbours in b, and the pairs of cells of a and b whose edges meet, each with the right local edges. If a and b each run through common edges in opposite directions, and so do meeting edges of a and b, then m does",
  "all consistent meshes in 2D or 3D with complete coordinates whose join succeeds, all iteration orders of the maps and sets (in the join and in the three features), boundary features and all features",
  "all pairs of meshes, coordinates and iteration orders; the tests join a few blocks and look at points and cells only",
  ["src/mesh/join_meshes.rs:join_two_meshes", "src/mesh/features.rs:new", "src/mesh/features.rs:get_neighbors_2d"])

p("Patch test",
  "If all cells of a mesh have the same stress (vec_04_bt with a closure that always returns it), the nodal forces added up over the cells vanish at every point inside of the mesh, whatever the sizes and shapes of the cells; at a point of the boundary they are stress times half (a third) of the sum of the normal vectors, times length (area), of the boundary edges (faces) at this point, in 2D exactly the loads that vec_02_nv_bry gives for the traction (stress times unit normal vector) on the edges of the boundary. If the displacements are linear functions of the position and the matrix D given to mat_10_bdb is the same everywhere, the stiffness matrices times the displacements, added up over the cells, vanish at every point inside. The same holds for uniform flux (vec_03_bv) and for conductivity matrices (mat_03_btb) times temperatures that are linear functions of the position. All equations are exact if the weights of the rules of the cells have the same sum relative to the reference cell; otherwise they hold up to an explicit bound by the rounding of the tables",
  "all consistent meshes of Tri3 and Qua4 cells (2D) or Tet4 cells (3D), with any other cells of lower dimension, that run through common edges (faces) in opposite directions; all coordinates (also distorted cells), stresses, matrices D, displacements, thicknesses, rules, places in the vectors and matrices, all iteration orders",
  "all meshes, coordinates, stresses and rules; the sums at a point combine several cells",
  ["src/integ/vec_04_bt.rs:vec_04_bt", "src/integ/mat_10_bdb.rs:mat_10_bdb", "src/integ/vec_03_bv.rs:vec_03_bv", "src/integ/mat_03_btb.rs:mat_03_btb", "src/integ/vec_02_nv_bry.rs:vec_02_nv_bry", "src/mesh/features.rs:new"])

p("Summaries printed by the grids",
  "Printing a GridSearch lists the non-empty containers by increasing number, each with the ids in it by increasing id; the ids line holds exactly the ids inserted so far, each once, and nitem is their number; the container of the last position of every id lists this id. Printing a GridCells counts every cell of the mesh once: a cell is either listed as large or in at least one container, never both, and ncell is the number of cells of the mesh; a cell is listed only under containers that hold a corner of the smallest box around its points. All container numbers are smaller than the number of containers of the grid. GridCells::stat gives the same numbers: number of cells and of containers, the largest number of cells in one container (reached by a container), and a histogram with one bar for each number from zero to this largest number, whose bars count the containers with so many cells and sum up to the number of containers",
  "all grids made by the constructors, all histories of insertions (also repeated ids), all meshes and parameters accepted by GridCells::new with large_pct < 1, all iteration orders of the maps and sets",
  "all histories, meshes and iteration orders; the tests compare the text of a few grids",
  ["src/util/grid_search.rs:fmt", "src/mesh/grid_cells.rs:fmt", "src/mesh/grid_cells.rs:stat"])

p("The range of a plot shows the whole mesh",
  "Without a range set by the user, Draw::all sets a range that contains every point of the mesh (if the multiplier m_range is not negative); the margins to the left, right, bottom and top are m_range times the extent of the mesh in this direction. Meshes without extent in x or y keep the automatic range. A range set by set_range_2d (set_range_3d) is used for meshes in two (three) dimensions only. set_m_range accepts negative numbers; then points are cut off",
  "all meshes with at least one point and complete coordinates, all multipliers and ranges",
  "all meshes and multipliers",
  ["src/mesh/draw.rs:config_plot_range", "src/mesh/draw.rs:all", "src/mesh/draw.rs:set_m_range"])

p("Supported structures have exactly one solution",
  "Let a mesh consist of triangles (tetrahedra) with positive area (volume), let the stiffness matrix of each cell be computed by mat_10_bdb with a positive definite matrix D (its own for each cell) and any rule, and let the matrices be added up. Then two sets of nodal displacements that have, in each direction at each point, the same prescribed value or the same nodal force, differ by one rigid motion in all cells that are linked by chains of shared edges (faces); if they have the same value at two (three) points of one of these cells they are equal in all of them. If all points belong to such linked cells and two (three) points of one of them are fixed, then for all prescribed values and all loads at the other places there is exactly one solution: the system of equations is regular, there are no zero-energy modes. The displacements without any nodal force are exactly those that move each cell like a rigid body. The same for temperatures: conductivity matrices (mat_03_btb) with a positive definite tensor determine the temperatures up to a constant in all cells linked by shared points, and if one temperature is prescribed there is exactly one solution for all heat supplies. One shared point is not enough for structures: it acts as a hinge",
  "all consistent meshes of Tri3 (2D) or Tet4 (3D) cells with positive measure and any other cells of lower dimension; all matrices and tensors that are positive definite (different ones in different cells), all thicknesses > 0, all rules, all displacements, temperatures and choices of prescribed values",
  "all meshes, materials and supports; regularity of the assembled matrix is a property of the whole mesh",
  ["src/integ/mat_10_bdb.rs:mat_10_bdb", "src/integ/mat_03_btb.rs:mat_03_btb", "src/mesh/mesh.rs:get_pad", "src/integ/gauss.rs:new_sized"])

p("Mass matrices are regular; implicit time steps have exactly one solution",
  "The matrix added by mat_01_nsn with a positive density (heat capacity) is positive definite, if the rule has at least as many integration points as the cell has nodes, positive weights, and the cell is not degenerated at the points; the same for mat_08_ntn with a positive definite tensor. With fewer points than nodes the matrix is singular. The default rules have positive weights and enough points for all kinds of cells but one: the 17-node quadrilateral gets 16 points, its mass matrix is always singular. On meshes of any kinds of cells, the equations of an implicit time step, (a M + b K) u = f with a > 0 and b >= 0, M assembled from such mass matrices and K from conductivity matrices of mat_03_btb with positive semi-definite tensors, have exactly one solution for all right-hand sides and all choices of prescribed values, also none",
  "all kinds of cells in 2D and 3D, plane and axisymmetric, all rules and densities; all consistent meshes in which every point belongs to a cell, all a > 0, b >= 0, tensors, right-hand sides and prescribed values",
  "all meshes, cells and densities; regularity depends on the positions of the integration points in the reference cell for every kind and rule",
  ["src/integ/mat_01_nsn.rs:mat_01_nsn", "src/integ/mat_08_ntn.rs:mat_08_ntn", "src/integ/mat_03_btb.rs:mat_03_btb", "src/integ/gauss.rs:new", "src/integ/gauss.rs:new_sized"])

p("Loads, reactions and heat are in balance over a whole mesh",
  "The internal forces of vec_04_bt with any stresses, added up at the points of a mesh, have no resultant and no moment. The same holds for the products of the stiffness matrices of mat_10_bdb with any displacements, for any symmetric D. Hence the reactions at the supports have the same resultant and moment as the loads, with opposite signs. Conductivity matrices of mat_03_btb times any temperatures add up to zero over all points. The sum over all points of mass matrices of mat_01_nsn times temperatures is the sum over the cells of the integrals of capacity times interpolated temperature; in every time step (implicit or explicit) it changes by the size of the step times the total supply only. Without supply an implicit Euler step of any size does not increase the norm of the temperatures in the mass matrix, with any points kept at zero",
  "all consistent meshes in 2D and 3D of all kinds of cells (forces: not axisymmetric), all rules, places in the vectors and matrices, stresses, matrices D, displacements, temperatures, supplies and sizes of time steps >= 0; stability: densities not negative, tensors positive semi-definite, volumes not negative and positive Jacobians",
  "all meshes, fields and steps; the sums combine all cells of a mesh",
  ["src/integ/vec_04_bt.rs:vec_04_bt", "src/integ/mat_10_bdb.rs:mat_10_bdb", "src/integ/mat_03_btb.rs:mat_03_btb", "src/integ/mat_01_nsn.rs:mat_01_nsn", "src/mesh/mesh.rs:get_pad"])

p("The tools qua2msh and hex2msh write what they generate, all or nothing",
  "qua2msh accepts 4, 8, 9, 12, 16 or 17 nodes, hex2msh 8, 20 or 32; other numbers are refused. If the tool succeeds, the MSH file, read again, is the mesh of the given blocks: consistent, without unused points, its cells are those of the regions, and every cell has the number of nodes that was asked for. A VTU file with the same points, cells and markers is written exactly for 4, 8, 9 (8, 20) nodes. The tool succeeds if and only if the blocks can be meshed; otherwise no file is written, in particular never an MSH file without its VTU file. A single block cannot be meshed with these tools",
  "all collections of blocks (whose divisions are larger than the tolerance of the search), all numbers of nodes, with and without renumbering, all iteration orders of hash maps; numbers that fit the types and are printed so that they can be read again; writing to the disk does not fail",
  "all collections of blocks and numbers of nodes",
  ["src/bin/qua2msh.rs:main", "src/bin/hex2msh.rs:main", "src/mesh/generators_qua_hex.rs:from_blocks_2d", "src/mesh/generators_qua_hex.rs:from_blocks_3d"])

if __name__ == "__main__":
    out = os.path.join(os.path.dirname(os.path.abspath(__file__)), "..", "properties.jsonl")
    with open(out, "w") as f:
        for q in P: f.write(json.dumps(q, ensure_ascii=False) + "\n")
    print(len(P))
