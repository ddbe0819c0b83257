{
 "C34": {
  "note": "All 20 kinds, all real reference coordinates; expression trees are generated from the Rust source."
 },
 "C38": {
  "note": "Edges of all kinds, faces of all 3D kinds, and the resulting agreement of two neighbouring cells (opposite edge orientation in 2D, any face symmetry in 3D)."
 },
 "C44": {
  "note": "Area identity for arbitrary node positions (projected on any pair of coordinates, so also surfaces in 3D), positivity on the reference cell, edge-to-edge matching."
 },
 "C01": {
  "note": "All connected graphs, all starts. C01_disconnected_refuted shows that the connectivity assumption cannot be dropped (check_connectivity=false)."
 },
 "C03": {
  "note": "For unreachable destinations the code returns [destination] (C03_unreachable)."
 },
 "C08": {
  "note": "renumber_points and renumber_mesh; well-formed meshes (cell points in range, coordinates of length ndim). Non-permutations give Err."
 },
 "C09": {
  "note": "C09_marked_untouched is the positive statement; C09_marked_edges_follow_refuted is the witness against the natural expectation."
 },
 "C10": {
  "note": "The iteration limit of 10 can be exceeded on a connected graph (C10_always_converges_refuted, 235 vertices)."
 },
 "C11": {
  "note": "Any sequence of new, set_weight, calc_dist_and_next, shortest_paths_fw. With parallel edges the last one of the list counts (C11_floyd_warshall_last_edge, C11_parallel_edges_refuted); a self-loop replaces the zero diagonal (C11_self_loop_refuted). Node ids must be 0..n-1 (contiguous); otherwise the code panics."
 },
 "C12": {
  "note": "Zero-weight cycles included. The statement is about all sufficiently large fuels, i.e. the while loop of path terminates. C12_stale_flag_refuted: calc_dist_and_next does not reset the ready flag."
 },
 "C30": {
  "note": "argsort2_f64/argsort3_f64 of russell_lab are assumed to return sorted indices (argsort2_spec, argsort3_spec); the example shows such functions."
 },
 "C19": {
  "note": "All 2D meshes with distinct cell ids."
 },
 "C20": {
  "note": "C20_first_four holds for every mesh; C20_quadratic_tets_refuted is a checked mesh of two Tet10 cells that share a face but not a key."
 },
 "C21": {
  "note": "shuffle = arbitrary iteration order of the hash map of edges. C21_quadratic_tets_refuted: with Tet10 an interior face is listed twice as boundary face and a marked triangular face loses its marker."
 },
 "C23": {
  "note": "Cells must not have a dimension above that of the mesh (otherwise get_neighbors_2d panics)."
 },
 "C24": {
  "note": "C24_edges_lookup_distinct_refuted: the lookup with several edges lists a cell once per edge (documented in the code)."
 },
 "C27": {
  "note": "C27_edges_used_once_refuted: with a branch (lollipop) an edge is used twice."
 },
 "C32": {
  "note": "Real arithmetic; degenerate simplices excluded (f64 would divide by zero)."
 },
 "C33": {
  "note": "Real arithmetic; radius non-negative; error cases characterised."
 },
 "C56": {
  "note": "Real arithmetic; acos of the Coq standard library."
 },
 "C13": {
  "note": "Real arithmetic; C13_current_position_refuted: copies of an id inserted earlier elsewhere are still found."
 },
 "C14": {
  "note": "Real arithmetic; any iteration order of the hash maps. C14_distance_complete_refuted: points within the comparison distance but in another container can be missed. C14_one_division_refuted: ndiv = 1 is documented as valid, always an error."
 },
 "C15": {
  "note": "Real arithmetic; any iteration order; radius non-negative; axis points more than sqrt(EPSILON) apart (error otherwise unless the grid is empty)."
 },
 "C57": {
  "note": "Real arithmetic; the cast to usize is the integer part (no saturation)."
 },
 "C25": {
  "note": "Real arithmetic; any iteration order of the hash containers; includes search_features_2d and the error cases. Filters are pure functions."
 },
 "C26": {
  "note": "Real arithmetic. C26_filter_refuted: the filter is ignored for At::XY in 2D and At::XYZ in 3D."
 },
 "C58": {
  "note": "C58_new_never_panics_refuted: a valid mesh with one horizontal cable makes Features::new panic."
 },
 "C28": {
  "note": "A valid (consistent, complete coordinates, 2D or 3D), B consistent; C28_total: succeeds when the boundary of A is not flat, all points of A are within its bounding box and the markers of B are usable."
 },
 "C59": {
  "note": "C59_never_panics_refuted: a marked triangular face of a valid second mesh makes the function panic (index usize::MAX)."
 },
 "C31": {
  "note": "Tri3 in 2D and Tet4 in 3D, non-degenerate cells, large_pct < 1. Soundness, completeness, the returned barycentric weights, limits of the grid, errors. C31_large_pct_refuted and C31_shell_refuted show the two cases in which the expectation fails."
 },
 "C16": {
  "note": "Meshes the format can express (2D/3D, at least one point and one cell, ids = positions, complete coordinates and nodes, values in range). The f64 printer/parser are arbitrary functions with parse (print x) = Some x for the coordinates of the mesh (true in Rust except for NaN). C16_no_cells_refuted: a mesh with marked edges but no cells is printed but not read back."
 },
 "C17": {
  "note": "C17_accepts characterises from_text and read on every text by a grammar independent of the parser; C17_no_panic; C17_panic_refuted (ndim < 2 panics), C17_dangling_refuted (point ids of cells are not checked), C17_face_extra_refuted (superfluous words after a marked face are ignored)."
 },
 "C18": {
  "note": "Blank and comment lines anywhere between lines, white space between words, indentation, trailing white space, final newline; results equal including error messages."
 },
 "C41": {
  "note": "Exact arithmetic. mat_inverse of russell_lab is modelled by the adjugate formulas with a threshold zdet >= 0. C41_gradient states the chain rule along every differentiable curve in reference space, so the gradient is that with respect to real coordinates. C41_flag_refuted: setting only the last component raises ok_xxt."
 },
 "C42": {
  "note": "Tangents are the columns of the matrix of partial derivatives of the isoparametric map. C42_unset_refuted: the coordinates need not be set."
 },
 "C43": {
  "note": "Exact arithmetic; a zero extent of the nodal coordinates (NaN in the code) ends with Err. C43_newton also fixes the first guess and every step; C43_affine shows convergence in at most one step for affine elements."
 },
 "C60": {
  "note": "C60_everywhere_refuted: a non-convex quadrilateral passes although the determinant is negative near a corner."
 },
 "C45": {
  "note": "Exact arithmetic. subdivided: a block reached by Block::new and setters, a target kind of the right class, nodes further apart than the tolerance of the search (sqrt(ndim)*1e-4 in reference space). The lattice is the integer lattice of nodes; hash containers are visited in any order. C45_merge_refuted: narrower divisions are accepted and merge nodes of a cell."
 },
 "C46": {
  "note": "Exact arithmetic with real sin and cos. C46_negative_radius_refuted: negative radii are accepted. With a ring and constraints at once only corner nodes are covered (middle nodes are put on straight edges)."
 },
 "C47": {
  "note": "Exact arithmetic. C47_adjacent_refuted: a node on two constrained sides satisfies only one of the constraints. C47_positions describes every node if no two adjacent sides are constrained and the block is not a ring; C47_determined: the description leaves no choice. In floating-point arithmetic a point that is on the circle but for rounding counts as moved (the code compares with a tolerance of zero), in exact arithmetic it does not."
 },
 "C54": {
  "note": "C54_set_ndiv_refuted: [3, 0] is rejected after the first direction has been changed (C54_partly gives the state in general)."
 },
 "C61": {
  "note": "Marked edges and faces as sets; middle nodes are not part of the keys."
 },
 "C62": {
  "note": "Exact arithmetic; zdet >= 0 is the threshold of the determinant in mat_inverse."
 },
 "C50": {
  "note": "Exact binary64 values of the tables, iterated Riemann integrals (Coquelicot, no axioms beyond the standard library's). Degrees: products of Legendre rules per direction, the others total degree; C50_sharp shows the degrees cannot be raised. Refuted: positive weights for all rules; default rule of Qua17."
 },
 "C51": {
  "note": "vec_01_ns, vec_02_nv, vec_03_bv for every kind, geometry, rule, closure and starting position: the entries, the untouched rest, and the totals. For surfaces in 3D the determinant in the quadrature is the -1 that calc_jacobian returns (see C68)."
 },
 "C52": {
  "note": "Formulas in full index form (tensors from Mandel components), symmetry, zero rows, semi-definiteness. Refuted: semi-definiteness of mat_01_nsn with a rule that has a negative weight."
 },
 "C53": {
  "note": "Equal as results (values, errors) when the matrix is exactly the element matrix, in 2D, 3D and axisymmetric. Refuted otherwise: mat_10_bdb_alt ignores ii0 and jj0 and panics when the matrix is larger."
 },
 "C63": {
  "note": "Formula, equilibrium of the internal forces (not axisymmetric), forces = stiffness times displacements, fluxes = conductivity times values."
 },
 "C64": {
  "note": "Positive semi-definite; rigid motions are in the kernel."
 },
 "C65": {
  "note": "Formulas in full index form for seven coupling matrices; transposes."
 },
 "C66": {
  "note": "Formulas with the normal vector as the rotated tangent or cross product; totals."
 },
 "C67": {
  "note": "For each of the 17 functions: Ok if and only if the stated conditions hold, Err otherwise, no panic. In axisymmetric mat_10_bdb the integration points are required to be off the axis."
 },
 "C68": {
  "note": "Value, totality, exactness through C50, sizes of straight elements. Refuted: surfaces in 3D (calc_jacobian returns -1)."
 },
 "C48": {
  "note": "Structure for all convertible meshes; sharing for meshes with at most two cells per edge. Refuted: marked edges are kept (they are dropped)."
 },
 "C69": {
  "note": "For conforming meshes numbered in one sense. Refuted: with a clockwise neighbour the nodes inside the shared edge are swapped (kinds with two or more of them)."
 },
 "C70": {
  "note": "Success characterised for all valid meshes; Err for all other meshes of one kind. Refuted: a mixed mesh may panic (edge number of a quadrilateral used with triangle tables)."
 },
 "C49": {
  "note": "Printing and reading of f64 are parameters (the printed words read back as the coordinates). The node coordinates of the VTK cell types are taken from the documentation of VTK (VtuSpec.vtk_nodes)."
 },
 "C71": {
  "note": "All kinds, pads and rules (also rules of another class)."
 },
 "C72": {
  "note": "mat_inverse and mat_pseudo_inverse are functions with a contract (inverse; the four Penrose equations). Refuted: five pairs of kind and rule have an interpolation matrix of small rank, so that values at the points cannot be prescribed (proved for four, among them the default rule of Qua17); with one point a constant field is not recovered (Qua8: -1/5 at the corners). Affine fields with fewer points than nodes: up to the rounding of the tables."
 },
 "C73": {
  "note": "f64 modelled by R. The HashMap of scratchpads is modelled with their state; vtk/gnuplot drawing not modelled."
 },
 "C74": {
  "note": "Shared faces of conforming solids have opposite boundary loops (solids_conform). Interior faces of meshes of ten-node tetrahedra are triangulated as well (C74_quadratic_tets_refuted), a consequence of C20."
 },
 "C75": {
  "note": "That every pair within the tolerance is reported is false: C75_complete_refuted gives, for any distance, two points that near in neighbouring containers, each found first in its own container. C75_flat: planar meshes in 3D cannot be checked."
 },
 "C76": {
  "note": "C76_total: success without renumbering; with renumbering the result is that of renumber_mesh (which can fail on its own, see C08). That good arguments never panic is false: C76_no_panic_refuted (a layer with zero divisions) and C76_thin_layer_refuted (a layer of height zdet)."
 },
 "C77": {
  "note": "That rings never have overlapping points is false: C77_distinct_refuted (inner radius zero is accepted). Divisions finer than the tolerance of the searches in the reference space of the block (1e-4 sqrt(ndim)) are excluded by not_fine (see C45_merge_refuted)."
 },
 "C78": {
  "note": "Every node: within the tolerance of the searches of the place given by the map of its block and, if the block has conditions, by the rules of C47_positions (exactly, for the first block). Marks: for renumber = false (renumber_mesh leaves the marked edges and faces unchanged, see C08). Divisions finer than the tolerance of the searches are excluded by regions_fine. C78_total_2d/3d: blocks whose Jacobian at the centre exceeds the threshold and that have no node too close to the centre of a condition are meshed; the result is then that of join_meshes (C28) and renumber_mesh (C08). C78_exact_2d/3d: one_to_one, separated and enclosing (ExactSpec.v) say that the blocks fit together and that an extreme point in every direction belongs to one cell only (otherwise the internal boundary extraction may not enclose all points, see C59). That acceptable data always give a mesh is false: C78_single_refuted (one block)."
 },
 "C79": {
  "note": "C79_disk_*, C79_plate_*: contents of a mesh that was made. C79_errors_*: no divisions, wrong kinds, radii in the wrong order, flat blocks. C79_total_*: all blocks are meshed exactly; what remains is the result of join_meshes (C28) and renumber_mesh (C08). C79_exact_2d_a, C79_exact_3d_a: complete success with linear cells, any number of divisions; renumbering is renumber_mesh of the mesh without it (C08). C79_one_*: complete success of the B-versions and plates with one linear cell per block; exactness for more divisions of those is open. Divisions finer than the tolerance of the searches are excluded by coarse. Constants of russell_lab::math are the exact real numbers."
 },
 "C80": {
  "note": "All methods of the four structures. LinElasticity (russell_tensor) is outside: mat_10_bdb is proved for any modulus matrix of the right size. Degenerate elements (zero area, division by zero in the code) are excluded by solid_element, which C80_tri3_new and C80_tet4_new show to hold for every element with an area or volume. The vectors of AnalyticalTri3 are for two-dimensional pads (the constructor accepts a triangle in space and then uses x and y only)."
 },
 "C81": {
  "note": "The data read from Trigen and Tetgen (out_point, out_cell_point, out_segment, out_marked_face ...) are a record; an output whose cells have another number of nodes than announced is excluded by tri_fine and tet_fine."
 },
 "C82": {
  "note": "Triangle (crate tritet) is an oracle; its setters write slots and reject numbers out of range. C82_region_inside_refuted: the mean of the corners of a Qua4 dart is outside of the cell, so the region marker and its maximum area go to another region or to none."
 },
 "C83": {
  "note": "Tet10 and Tet20 are excluded because of C20/C21 (faces of quadratic tetrahedra are looked up with four points). The documentation restricts shells to Tri3 and Qua4; the code accepts all and passes the points of a Tri6 or Qua8 in node order (corners first), which is not the boundary of the shell."
 },
 "C84": {
  "note": "C84_polygon, C84_corners: the input; C84_region_point: inside if rmin + 0.0002 < rmax, C84_region_point_refuted: rmin = 1, rmax = 1.00001. C84_result: Tri3 and Tri6; C84_converted: Tri10 and Tri15 (arcs with a radius of at least 1e-10; the marked nodes of an edge shared with an earlier cell come from that cell). C84_renumber_refuted: after renumbering the edge marked -5 has an end at radius 2 (rmin = 1)."
 },
 "C85": {
  "note": "C85_result needs faces of the output with a marker that is not zero (a face marked zero would overwrite negative markers of its points). C85_region_point_refuted: thickness 0.00001."
 },
 "C86": {
  "note": "The tangents in the specification are the partial derivatives of the isoparametric map. C86_magnitude_refuted: wrong magnitudes panic (approx_eq of russell_lab). For triangular faces the point is a corner, as in the code."
 },
 "C87": {
  "note": "C87_faces is stated with sort4, the key of the code, and includes Tet10 and Tet20. Interior edges and faces (extract_all) get the direction of the first cell that has them."
 },
 "C88": {
  "note": "A canvas is the list of the commands sent to plotpy; DrawSpec.v says which Bezier pieces they show (C88_determined: only one picture fits). C88_five_nodes_refuted: a Lin5 drawn without passing through its middle node. Kinds of more dimensions than the space do not occur (C01)."
 },
 "C89": {
  "note": "Only the edges; the labels of the nodes and the plot object of draw_shape are not modelled."
 },
 "C90": {
  "note": "DrawMeshSpec.v says what an arrow of an edge, a face or a shell is; the direction is stated as in C87. The iteration order of the maps of edges and faces only permutes the arrows. With no points listed (then there is nothing to draw) the length would come from f64::MIN - f64::MAX, the parameter `big`."
 },
 "C91": {
  "note": "C91_interior_refuted: a marked edge between two cells gets no label with the boundary features that Draw::all uses. The tolerance is the one of set_tol_edge_marker: lines that deviate from an axis by less are taken as parallel to it."
 },
 "C92": {
  "note": "C92_line_refuted: the label of a straight Lin3 covers its middle node."
 },
 "C93": {
  "note": "Everything sent to plotpy up to the configuration of the figure; C93_all composes C90 to C92 with C93_cells and the boundary. Callbacks, zoom, camera, ranges and the file are not modelled."
 },
 "C94": {
  "note": "Composes C45 (lattice of points), C19 to C23; the opposite side and the next cell are determined by sums of lattice coordinates."
 },
 "C95": {
  "note": "Two-dimensional blocks: edges; three-dimensional: faces (marked edges of 3D blocks are in C61 as marks of the mesh)."
 },
 "C96": {
  "note": "The direction of the edges and faces is a hypothesis (C96_overlap_refuted: positive areas are not enough); C96_block shows it for all blocks. Tet10 and Tet20 are excluded in 3D because Features keys their faces by four of the points (C20). C96_normals_3d is about Tet4 and Hex8; curved faces are not covered by it."
 },
 "C97": {
  "note": "Straight cells: Tri3, Qua4, Tet4."
 },
 "C98": {
  "note": "Edges in 3D: same pairs of end points (their node lists may depend on the iteration order, C21). Quadratic and larger tetrahedra excluded in 3D (C20). C98_markers_refuted: markers of features do not follow the points."
 },
 "C99": {
  "note": "Exact arithmetic with the rounded tables of points and weights. Faces Tri3 and Qua4 only. Moments over Qua4 faces need at least four points. C99_loads_exist: with the default rules (which have enough points) the calls succeed on every edge and face of these meshes."
 },
 "C100": {
  "note": "Corners and end points; the nodes inside the edges are the subject of C48 and C69. The markers of edges are lost (C48_marked_edges_refuted)."
 },
 "C101": {
  "note": "Points of b that are nearer than twice the tolerance may be merged with each other through a point of a, therefore the hypothesis. Faces and edges meet if all their corners are merged."
 },
 "C102": {
  "note": "Plane stress, plane strain and 3D; not the axisymmetric case (there uniform stress does cause forces). Exact equality for cells with the same weight_ratio; C102_rounding for arbitrary rules. The loads of tractions only in 2D: in 3D the tables of triangles integrate the interpolation functions up to rounding only."
 },
 "C103": {
  "note": "Numbers and their order are modelled, not their formatting as text. The histogram is russell_stat's, taken to count the values in [i, i+1). Grids with large_pct = 1 are excluded as in C31."
 },
 "C104": {
  "note": "Negative multipliers: refuted (C104_negative_refuted). Only x and y have a range in config_plot_range, also for meshes in three dimensions."
 },
 "C105": {
  "note": "Plane (no strain normal to the plane) and 3D; not the axisymmetric case; straight triangles and tetrahedra only, where every rule gives the exact stiffness up to a positive factor. C105_hinge_refuted: cells that share one point only can turn without forces. Regularity is stated as existence and uniqueness of the solution in exact arithmetic; the solver itself is not part of gemlab."
 },
 "C106": {
  "note": "C106_qua17_refuted: the default rule of Qua17 has 16 points for 17 nodes (gauss.rs:new), so its mass matrix is singular. Exact arithmetic with the tabulated points; the solver is not part of gemlab."
 },
 "C107": {
  "note": "Exact arithmetic. The assembly itself (adding up over the cells at shared points) is the user's loop, described by nodal_force and nodal_heat in UniqueSpec; gemlab computes the local vectors and matrices."
 },
 "C108": {
  "note": "ToolsModel: the mains of qua2msh and hex2msh after the input has been read (command line, JSON input, messages and the SVG figure are not modelled; writing a text to a file always succeeds). C108_qua, C108_hex: what is in the files on success (uses C78, C16 and C49; ToolsProof.number_onto: every cell belongs to a region). C108_qua_nothing, C108_hex_nothing: all or nothing. C108_refused: other numbers of nodes. C108_single_refuted: one block is refused (join_meshes needs two meshes), for every number of nodes. C108_ex: two squares, with a printer and a reader of numbers for which the hypotheses hold."
 }
}