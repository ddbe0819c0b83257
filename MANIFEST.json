{
 "claims": [
  {
   "property": "C01",
   "status": "proved",
   "theorems": [
    "C01_cuthill_mckee_permutation",
    "C01_default_start",
    "C01_disconnected_refuted"
   ],
   "note": "All connected graphs, all starts. C01_disconnected_refuted shows that the connectivity assumption cannot be dropped (check_connectivity=false)."
  },
  {
   "property": "C02",
   "status": "proved",
   "theorems": [
    "C02_level_order",
    "C02_cuthill_mckee_rule"
   ],
   "note": ""
  },
  {
   "property": "C03",
   "status": "proved",
   "theorems": [
    "C03_shortest_path",
    "C03_unreachable"
   ],
   "note": "For unreachable destinations the code returns [destination] (C03_unreachable)."
  },
  {
   "property": "C04",
   "status": "proved",
   "theorems": [
    "C04_calc_distance"
   ],
   "note": ""
  },
  {
   "property": "C05",
   "status": "proved",
   "theorems": [
    "C05_from_edges_connected",
    "C05_from_mesh_connected"
   ],
   "note": ""
  },
  {
   "property": "C06",
   "status": "proved",
   "theorems": [
    "C06_graph_of_mesh",
    "C06_graph_of_edges",
    "C06_get_edges",
    "C06_has_edge",
    "C06_get_degree",
    "C06_hash_order_irrelevant",
    "C06_self_loop_nedge_refuted",
    "C06_density",
    "C06_pattern"
   ],
   "note": ""
  },
  {
   "property": "C07",
   "status": "proved",
   "theorems": [
    "C07_bandwidth",
    "C07_bandwidth_renumbered"
   ],
   "note": ""
  },
  {
   "property": "C08",
   "status": "proved",
   "theorems": [
    "C08_renumber_points",
    "C08_renumber_mesh",
    "C08_renumber_mesh_order",
    "C08_renumber_mesh_succeeds"
   ],
   "note": "renumber_points and renumber_mesh; well-formed meshes (cell points in range, coordinates of length ndim). Non-permutations give Err."
  },
  {
   "property": "C09",
   "status": "proved",
   "theorems": [
    "C09_marked_edges_follow_refuted",
    "C09_marked_untouched"
   ],
   "note": "C09_marked_untouched is the positive statement; C09_marked_edges_follow_refuted is the witness against the natural expectation."
  },
  {
   "property": "C10",
   "status": "proved",
   "theorems": [
    "C10_pseudo_peripheral",
    "C10_outcome",
    "C10_converges",
    "C10_always_converges_refuted"
   ],
   "note": "The iteration limit of 10 can be exceeded on a connected graph (C10_always_converges_refuted, 235 vertices)."
  },
  {
   "property": "C11",
   "status": "proved",
   "theorems": [
    "C11_floyd_warshall_last_edge",
    "C11_floyd_warshall",
    "C11_parallel_edges_refuted",
    "C11_self_loop_refuted"
   ],
   "note": "Any sequence of new, set_weight, calc_dist_and_next, shortest_paths_fw. With parallel edges the last one of the list counts (C11_floyd_warshall_last_edge, C11_parallel_edges_refuted); a self-loop replaces the zero diagonal (C11_self_loop_refuted). Node ids must be 0..n-1 (contiguous); otherwise the code panics."
  },
  {
   "property": "C12",
   "status": "proved",
   "theorems": [
    "C12_path",
    "C12_path_weight",
    "C12_set_weight_resets",
    "C12_stale_flag_refuted"
   ],
   "note": "Zero-weight cycles included. The statement is about all sufficiently large fuels, i.e. the while loop of path terminates. C12_stale_flag_refuted: calc_dist_and_next does not reset the ready flag."
  },
  {
   "property": "C13",
   "status": "proved",
   "theorems": [
    "C13_search_sound",
    "C13_current_position_refuted"
   ],
   "note": "Real arithmetic; C13_current_position_refuted: copies of an id inserted earlier elsewhere are still found."
  },
  {
   "property": "C14",
   "status": "proved",
   "theorems": [
    "C14_search_complete",
    "C14_search_total",
    "C14_insert_total",
    "C14_is_outside",
    "C14_limits_cover",
    "C14_new_total",
    "C14_new_no_panic",
    "C14_distance_complete_refuted",
    "C14_one_division_refuted"
   ],
   "note": "Real arithmetic; any iteration order of the hash maps. C14_distance_complete_refuted: points within the comparison distance but in another container can be missed. C14_one_division_refuted: ndiv = 1 is documented as valid, always an error."
  },
  {
   "property": "C15",
   "status": "proved",
   "theorems": [
    "C15_on_line",
    "C15_on_circle",
    "C15_on_cylinder",
    "C15_on_plane",
    "C15_errors",
    "C15_exact"
   ],
   "note": "Real arithmetic; any iteration order; radius non-negative; axis points more than sqrt(EPSILON) apart (error otherwise unless the grid is empty)."
  },
  {
   "property": "C16",
   "status": "proved",
   "theorems": [
    "C16_round_trip",
    "C16_file",
    "C16_reprint",
    "C16_no_cells_refuted"
   ],
   "note": "Meshes the format can express (2D/3D, at least one point and one cell, ids = positions, complete coordinates and nodes, values in range). The f64 printer/parser are arbitrary functions with parse (print x) = Some x for the coordinates of the mesh (true in Rust except for NaN). C16_no_cells_refuted: a mesh with marked edges but no cells is printed but not read back."
  },
  {
   "property": "C17",
   "status": "proved",
   "theorems": [
    "C17_rows",
    "C17_accepts",
    "C17_valid",
    "C17_no_panic",
    "C17_panic_refuted",
    "C17_dangling_refuted",
    "C17_face_extra_refuted"
   ],
   "note": "C17_accepts characterises from_text and read on every text by a grammar independent of the parser; C17_no_panic; C17_panic_refuted (ndim < 2 panics), C17_dangling_refuted (point ids of cells are not checked), C17_face_extra_refuted (superfluous words after a marked face are ignored)."
  },
  {
   "property": "C18",
   "status": "proved",
   "theorems": [
    "C18_layout",
    "C18_rows"
   ],
   "note": "Blank and comment lines anywhere between lines, white space between words, indentation, trailing white space, final newline; results equal including error messages."
  },
  {
   "property": "C19",
   "status": "proved",
   "theorems": [
    "C19_edge_map",
    "C19_edge_map_total"
   ],
   "note": "All 2D meshes with distinct cell ids."
  },
  {
   "property": "C20",
   "status": "proved",
   "theorems": [
    "C20_face_map",
    "C20_orientation",
    "C20_first_four",
    "C20_face_map_total",
    "C20_quadratic_tets_refuted"
   ],
   "note": "C20_first_four holds for every mesh; C20_quadratic_tets_refuted is a checked mesh of two Tet10 cells that share a face but not a key."
  },
  {
   "property": "C21",
   "status": "proved",
   "theorems": [
    "C21_new_total",
    "C21_listed_edges_2d",
    "C21_edge_data_2d",
    "C21_listed_faces_3d",
    "C21_face_data_3d",
    "C21_listed_edges_3d",
    "C21_quadratic_tets_refuted",
    "C21_edge_keys",
    "C21_face_keys",
    "C21_boundary_edges_2d",
    "C21_boundary_edges_3d",
    "C21_marked_edges",
    "C21_marked_faces"
   ],
   "note": "shuffle = arbitrary iteration order of the hash map of edges. C21_quadratic_tets_refuted: with Tet10 an interior face is listed twice as boundary face and a marked triangular face loses its marker."
  },
  {
   "property": "C22",
   "status": "proved",
   "theorems": [
    "C22_points_and_limits",
    "C22_point_maps"
   ],
   "note": ""
  },
  {
   "property": "C23",
   "status": "proved",
   "theorems": [
    "C23_neighbors",
    "C23_symmetric",
    "C23_total"
   ],
   "note": "Cells must not have a dimension above that of the mesh (otherwise get_neighbors_2d panics)."
  },
  {
   "property": "C24",
   "status": "proved",
   "theorems": [
    "C24_pairs_via_edges",
    "C24_pairs_via_faces",
    "C24_cells_via_edge",
    "C24_cells_via_face",
    "C24_pairs_via_edge",
    "C24_pairs_via_face",
    "C24_cells_via_edges",
    "C24_cells_via_faces",
    "C24_edges_lookup_distinct_refuted",
    "C24_points_via_edges",
    "C24_points_via_faces",
    "C24_edges_all_points",
    "C24_faces_all_points"
   ],
   "note": "C24_edges_lookup_distinct_refuted: the lookup with several edges lists a cell once per edge (documented in the code)."
  },
  {
   "property": "C25",
   "status": "proved",
   "theorems": [
    "C25_edge_keys",
    "C25_edges",
    "C25_face_keys",
    "C25_faces",
    "C25_errors",
    "C25_many_edges",
    "C25_many_faces",
    "C25_features_2d"
   ],
   "note": "Real arithmetic; any iteration order of the hash containers; includes search_features_2d and the error cases. Filters are pure functions."
  },
  {
   "property": "C26",
   "status": "proved",
   "theorems": [
    "C26_point_ids",
    "C26_wrong_query",
    "C26_single",
    "C26_filter_refuted"
   ],
   "note": "Real arithmetic. C26_filter_refuted: the filter is ignored for At::XY in 2D and At::XYZ in 3D."
  },
  {
   "property": "C27",
   "status": "proved",
   "theorems": [
    "C27_any_path",
    "C27_simple_chain_or_loop",
    "C27_edges_used_once_refuted"
   ],
   "note": "C27_edges_used_once_refuted: with a branch (lollipop) an edge is used twice."
  },
  {
   "property": "C28",
   "status": "proved",
   "theorems": [
    "C28_join",
    "C28_total",
    "C28_different_ndim",
    "C28_many",
    "C28_few"
   ],
   "note": "A valid (consistent, complete coordinates, 2D or 3D), B consistent; C28_total: succeeds when the boundary of A is not flat, all points of A are within its bounding box and the markers of B are usable."
  },
  {
   "property": "C29",
   "status": "proved",
   "theorems": [
    "C29_check_ids_and_kind",
    "C29_check_total",
    "C29_checked_cells_are_readable",
    "C29_coordinates_checked_refuted",
    "C29_new_zero_homogeneous"
   ],
   "note": ""
  },
  {
   "property": "C30",
   "status": "proved",
   "theorems": [
    "C30_marked_points",
    "C30_no_marked_points",
    "C30_some_marked_points",
    "C30_first_marked_point",
    "C30_first_is_smallest",
    "C30_sorted_points"
   ],
   "note": "argsort2_f64/argsort3_f64 of russell_lab are assumed to return sorted indices (argsort2_spec, argsort3_spec); the example shows such functions."
  },
  {
   "property": "C31",
   "status": "proved",
   "theorems": [
    "C31_new",
    "C31_flat",
    "C31_search",
    "C31_found",
    "C31_errors",
    "C31_large_pct_refuted",
    "C31_shell_refuted"
   ],
   "note": "Tri3 in 2D and Tet4 in 3D, non-degenerate cells, large_pct < 1. Soundness, completeness, the returned barycentric weights, limits of the grid, errors. C31_large_pct_refuted and C31_shell_refuted show the two cases in which the expectation fails."
  },
  {
   "property": "C32",
   "status": "proved",
   "theorems": [
    "C32_triangle_coords",
    "C32_in_triangle",
    "C32_tetrahedron_coords",
    "C32_in_tetrahedron"
   ],
   "note": "Real arithmetic; degenerate simplices excluded (f64 would divide by zero)."
  },
  {
   "property": "C33",
   "status": "proved",
   "theorems": [
    "C33_point_point",
    "C33_point_line",
    "C33_point_circle",
    "C33_point_cylinder"
   ],
   "note": "Real arithmetic; radius non-negative; error cases characterised."
  },
  {
   "property": "C34",
   "status": "proved",
   "theorems": [
    "C34_partition_of_unity",
    "C34_derivatives_sum_to_zero"
   ],
   "note": "All 20 kinds, all real reference coordinates; expression trees are generated from the Rust source."
  },
  {
   "property": "C35",
   "status": "proved",
   "theorems": [
    "C35_kronecker",
    "C35_coords_at_node"
   ],
   "note": ""
  },
  {
   "property": "C36",
   "status": "proved",
   "theorems": [
    "C36_derivative"
   ],
   "note": ""
  },
  {
   "property": "C37",
   "status": "proved",
   "theorems": [
    "C37_affine_reproduction"
   ],
   "note": ""
  },
  {
   "property": "C38",
   "status": "proved",
   "theorems": [
    "C38_edge_conformity",
    "C38_face_conformity",
    "C38_shared_edge",
    "C38_shared_face",
    "C38_symmetry_acts_on_nodes"
   ],
   "note": "Edges of all kinds, faces of all 3D kinds, and the resulting agreement of two neighbouring cells (opposite edge orientation in 2D, any face symmetry in 3D)."
  },
  {
   "property": "C39",
   "status": "proved",
   "theorems": [
    "C39_edge_nodes_on_edge",
    "C39_inward_is_reverse",
    "C39_face_edges",
    "C39_interior_nodes",
    "C39_lower_order_nodes_first",
    "C39_entries_in_range",
    "C39_faces_closed",
    "C39_edge_outward",
    "C39_face_outward",
    "C39_hex_edge_to_face"
   ],
   "note": ""
  },
  {
   "property": "C40",
   "status": "proved",
   "theorems": [
    "C40_name_round_trip",
    "C40_only_names_accepted",
    "C40_values_complete"
   ],
   "note": ""
  },
  {
   "property": "C41",
   "status": "proved",
   "theorems": [
    "C41_coords",
    "C41_jacobian",
    "C41_jacobian_total",
    "C41_gradient",
    "C41_gradient_total",
    "C41_get_pad",
    "C41_flag_refuted"
   ],
   "note": "Exact arithmetic. mat_inverse of russell_lab is modelled by the adjugate formulas with a threshold zdet >= 0. C41_gradient states the chain rule along every differentiable curve in reference space, so the gradient is that with respect to real coordinates. C41_flag_refuted: setting only the last component raises ok_xxt."
  },
  {
   "property": "C42",
   "status": "proved",
   "theorems": [
    "C42_normal_2d",
    "C42_normal_3d",
    "C42_total",
    "C42_unset_refuted"
   ],
   "note": "Tangents are the columns of the matrix of partial derivatives of the isoparametric map. C42_unset_refuted: the coordinates need not be set."
  },
  {
   "property": "C43",
   "status": "proved",
   "theorems": [
    "C43_residual",
    "C43_newton",
    "C43_affine"
   ],
   "note": "Exact arithmetic; a zero extent of the nodal coordinates (NaN in the code) ends with Err. C43_newton also fixes the first guess and every step; C43_affine shows convergence in at most one step for affine elements."
  },
  {
   "property": "C44",
   "status": "proved",
   "theorems": [
    "C44_triangulation_area",
    "C44_triangles_positive",
    "C44_triangles_match_edge_to_edge"
   ],
   "note": "Area identity for arbitrary node positions (projected on any pair of coordinates, so also surfaces in 3D), positivity on the reference cell, edge-to-edge matching."
  },
  {
   "property": "C45",
   "status": "proved",
   "theorems": [
    "C45_consistent",
    "C45_cells",
    "C45_nodes",
    "C45_conforming",
    "C45_positions",
    "C45_inside",
    "C45_total",
    "C45_wrong_class",
    "C45_merge_refuted"
   ],
   "note": "Exact arithmetic. subdivided: a block reached by Block::new and setters, a target kind of the right class, nodes further apart than the tolerance of the search (sqrt(ndim)*1e-4 in reference space). The lattice is the integer lattice of nodes; hash containers are visited in any order. C45_merge_refuted: narrower divisions are accepted and merge nodes of a cell."
  },
  {
   "property": "C46",
   "status": "proved",
   "theorems": [
    "C46_ring",
    "C46_map",
    "C46_corners",
    "C46_setter",
    "C46_negative_radius_refuted"
   ],
   "note": "Exact arithmetic with real sin and cos. C46_negative_radius_refuted: negative radii are accepted. With a ring and constraints at once only corner nodes are covered (middle nodes are put on straight edges)."
  },
  {
   "property": "C47",
   "status": "proved",
   "theorems": [
    "C47_on_constraint",
    "C47_unmoved",
    "C47_radial",
    "C47_total",
    "C47_at_center",
    "C47_edge_setter",
    "C47_face_setter",
    "C47_adjacent_refuted",
    "C47_positions",
    "C47_determined"
   ],
   "note": "Exact arithmetic. C47_adjacent_refuted: a node on two constrained sides satisfies only one of the constraints. C47_positions describes every node if no two adjacent sides are constrained and the block is not a ring; C47_determined: the description leaves no choice. In floating-point arithmetic a point that is on the circle but for rounding counts as moved (the code compares with a tolerance of zero), in exact arithmetic it does not."
  },
  {
   "property": "C48",
   "status": "proved",
   "theorems": [
    "C48_valid",
    "C48_corners",
    "C48_corners_shared",
    "C48_edges_shared",
    "C48_no_other_sharing",
    "C48_markers",
    "C48_marked_edges_refuted"
   ],
   "note": "Structure for all convertible meshes; sharing for meshes with at most two cells per edge. Refuted: marked edges are kept (they are dropped)."
  },
  {
   "property": "C49",
   "status": "proved",
   "theorems": [
    "C49_contents",
    "C49_succeeds",
    "C49_kinds",
    "C49_determines",
    "C49_node_order"
   ],
   "note": "Printing and reading of f64 are parameters (the printed words read back as the coordinates). The node coordinates of the VTK cell types are taken from the documentation of VTK (VtuSpec.vtk_nodes)."
  },
  {
   "property": "C50",
   "status": "proved",
   "theorems": [
    "C50_exact",
    "C50_sharp",
    "C50_points",
    "C50_positive_refuted",
    "C50_sizes",
    "C50_default",
    "C50_default_products",
    "C50_default_products_refuted"
   ],
   "note": "Exact binary64 values of the tables, iterated Riemann integrals (Coquelicot, no axioms beyond the standard library's). Degrees: products of Legendre rules per direction, the others total degree; C50_sharp shows the degrees cannot be raised. Refuted: positive weights for all rules; default rule of Qua17."
  },
  {
   "property": "C51",
   "status": "proved",
   "theorems": [
    "C51_scalar",
    "C51_vector",
    "C51_flux"
   ],
   "note": "vec_01_ns, vec_02_nv, vec_03_bv for every kind, geometry, rule, closure and starting position: the entries, the untouched rest, and the totals. For surfaces in 3D the determinant in the quadrature is the -1 that calc_jacobian returns (see C68)."
  },
  {
   "property": "C52",
   "status": "proved",
   "theorems": [
    "C52_mass",
    "C52_mass_rows",
    "C52_mass_psd_refuted",
    "C52_conductivity",
    "C52_stiffness"
   ],
   "note": "Formulas in full index form (tensors from Mandel components), symmetry, zero rows, semi-definiteness. Refuted: semi-definiteness of mat_01_nsn with a rule that has a negative weight."
  },
  {
   "property": "C53",
   "status": "proved",
   "theorems": [
    "C53_equal",
    "C53_larger",
    "C53_refuted"
   ],
   "note": "Equal as results (values, errors) when the matrix is exactly the element matrix, in 2D, 3D and axisymmetric. Refuted otherwise: mat_10_bdb_alt ignores ii0 and jj0 and panics when the matrix is larger."
  },
  {
   "property": "C54",
   "status": "proved",
   "theorems": [
    "C54_set_ndiv",
    "C54_partly",
    "C54_set_ndiv_refuted",
    "C54_weights_2d",
    "C54_weights_3d"
   ],
   "note": "C54_set_ndiv_refuted: [3, 0] is rejected after the first direction has been changed (C54_partly gives the state in general)."
  },
  {
   "property": "C55",
   "status": "proved",
   "theorems": [
    "C55_limits",
    "C55_cell_bounding_box"
   ],
   "note": ""
  },
  {
   "property": "C56",
   "status": "proved",
   "theorems": [
    "C56_area_magnitude",
    "C56_area_sign",
    "C56_parallelogram",
    "C56_from_slices",
    "C56_triangle_from_slices",
    "C56_angles",
    "C56_angle_cos",
    "C56_angles_rotate"
   ],
   "note": "Real arithmetic; acos of the Coq standard library."
  },
  {
   "property": "C57",
   "status": "proved",
   "theorems": [
    "C57_num_divisions",
    "C57_rejects"
   ],
   "note": "Real arithmetic; the cast to usize is the integer part (no saturation)."
  },
  {
   "property": "C58",
   "status": "proved",
   "theorems": [
    "C58_grid_total",
    "C58_flat_panics",
    "C58_new_never_panics_refuted"
   ],
   "note": "C58_new_never_panics_refuted: a valid mesh with one horizontal cable makes Features::new panic."
  },
  {
   "property": "C59",
   "status": "proved",
   "theorems": [
    "C59_marked_edges",
    "C59_marked_faces",
    "C59_many",
    "C59_triangular",
    "C59_never_panics_refuted"
   ],
   "note": "C59_never_panics_refuted: a marked triangular face of a valid second mesh makes the function panic (index usize::MAX)."
  },
  {
   "property": "C60",
   "status": "proved",
   "theorems": [
    "C60_check_all",
    "C60_check_jacobian",
    "C60_everywhere_refuted"
   ],
   "note": "C60_everywhere_refuted: a non-convex quadrilateral passes although the determinant is negative near a corner."
  },
  {
   "property": "C61",
   "status": "proved",
   "theorems": [
    "C61_edges",
    "C61_faces",
    "C61_edge_setter",
    "C61_face_setter"
   ],
   "note": "Marked edges and faces as sets; middle nodes are not part of the keys."
  },
  {
   "property": "C62",
   "status": "proved",
   "theorems": [
    "C62_new",
    "C62_size"
   ],
   "note": "Exact arithmetic; zdet >= 0 is the threshold of the determinant in mat_inverse."
  },
  {
   "property": "C63",
   "status": "proved",
   "theorems": [
    "C63_forces",
    "C63_equilibrium",
    "C63_stiffness_times",
    "C63_conductivity_times"
   ],
   "note": "Formula, equilibrium of the internal forces (not axisymmetric), forces = stiffness times displacements, fluxes = conductivity times values."
  },
  {
   "property": "C64",
   "status": "proved",
   "theorems": [
    "C64_not_negative",
    "C64_rigid"
   ],
   "note": "Positive semi-definite; rigid motions are in the kernel."
  },
  {
   "property": "C65",
   "status": "proved",
   "theorems": [
    "C65_mat_02",
    "C65_mat_04",
    "C65_mat_05",
    "C65_mat_06",
    "C65_mat_07",
    "C65_mat_08",
    "C65_mat_09",
    "C65_transpose"
   ],
   "note": "Formulas in full index form for seven coupling matrices; transposes."
  },
  {
   "property": "C66",
   "status": "proved",
   "theorems": [
    "C66_scalar",
    "C66_vector",
    "C66_matrix"
   ],
   "note": "Formulas with the normal vector as the rotated tangent or cross product; totals."
  },
  {
   "property": "C67",
   "status": "proved",
   "theorems": [
    "C67_vec_01",
    "C67_vec_02",
    "C67_vec_03",
    "C67_vec_04",
    "C67_vec_01_bry",
    "C67_vec_02_bry",
    "C67_mat_01",
    "C67_mat_01_bry",
    "C67_mat_02",
    "C67_mat_03",
    "C67_mat_04",
    "C67_mat_05",
    "C67_mat_06",
    "C67_mat_07",
    "C67_mat_08",
    "C67_mat_09",
    "C67_mat_10"
   ],
   "note": "For each of the 17 functions: Ok if and only if the stated conditions hold, Err otherwise, no panic. In axisymmetric mat_10_bdb the integration points are required to be off the axis."
  },
  {
   "property": "C68",
   "status": "proved",
   "theorems": [
    "C68_value",
    "C68_exact",
    "C68_sizes",
    "C68_surface",
    "C68_surface_refuted"
   ],
   "note": "Value, totality, exactness through C50, sizes of straight elements. Refuted: surfaces in 3D (calc_jacobian returns -1)."
  },
  {
   "property": "C69",
   "status": "proved",
   "theorems": [
    "C69_positions",
    "C69_shapes",
    "C69_unshared_positions",
    "C69_clockwise_refuted"
   ],
   "note": "For conforming meshes numbered in one sense. Refuted: with a clockwise neighbour the nodes inside the shared edge are swapped (kinds with two or more of them)."
  },
  {
   "property": "C70",
   "status": "proved",
   "theorems": [
    "C70_succeeds",
    "C70_errors",
    "C70_mixed_refuted"
   ],
   "note": "Success characterised for all valid meshes; Err for all other meshes of one kind. Refuted: a mixed mesh may panic (edge number of a quadrilateral used with triangle tables)."
  },
  {
   "property": "C71",
   "status": "proved",
   "theorems": [
    "C71_points",
    "C71_unset",
    "C71_matrix",
    "C71_values",
    "C71_affine"
   ],
   "note": "All kinds, pads and rules (also rules of another class)."
  },
  {
   "property": "C72",
   "status": "proved",
   "theorems": [
    "C72_outcome",
    "C72_total",
    "C72_shape",
    "C72_recovers",
    "C72_least_squares",
    "C72_back",
    "C72_back_refuted",
    "C72_affine_exact",
    "C72_affine",
    "C72_single",
    "C72_constant_refuted"
   ],
   "note": "mat_inverse and mat_pseudo_inverse are functions with a contract (inverse; the four Penrose equations). Refuted: five pairs of kind and rule have an interpolation matrix of small rank, so that values at the points cannot be prescribed (proved for four, among them the default rule of Qua17); with one point a constant field is not recovered (Qua8: -1/5 at the corners). Affine fields with fewer points than nodes: up to the rounding of the tables."
  },
  {
   "property": "C73",
   "status": "proved",
   "theorems": [
    "C73_triangulation",
    "C73_returns",
    "C73_ignored",
    "C73_size",
    "C73_area",
    "C73_edges",
    "C73_closed",
    "C73_element",
    "C73_element_errors"
   ],
   "note": "f64 modelled by R. The HashMap of scratchpads is modelled with their state; vtk/gnuplot drawing not modelled."
  },
  {
   "property": "C74",
   "status": "proved",
   "theorems": [
    "C74_boundary",
    "C74_closed",
    "C74_plane",
    "C74_quadratic_tets_refuted"
   ],
   "note": "Shared faces of conforming solids have opposite boundary loops (solids_conform). Interior faces of meshes of ten-node tetrahedra are triangulated as well (C74_quadratic_tets_refuted), a consequence of C20."
  },
  {
   "property": "C75",
   "status": "proved",
   "theorems": [
    "C75_total",
    "C75_sound",
    "C75_duplicates",
    "C75_complete_refuted",
    "C75_flat"
   ],
   "note": "That every pair within the tolerance is reported is false: C75_complete_refuted gives, for any distance, two points that near in neighbouring containers, each found first in its own container. C75_flat: planar meshes in 3D cannot be checked."
  },
  {
   "property": "C76",
   "status": "proved",
   "theorems": [
    "C76_rectangle",
    "C76_total",
    "C76_tiling",
    "C76_errors",
    "C76_accepted",
    "C76_no_panic_refuted",
    "C76_thin_layer_refuted"
   ],
   "note": "C76_total: success without renumbering; with renumbering the result is that of renumber_mesh (which can fail on its own, see C08). That good arguments never panic is false: C76_no_panic_refuted (a layer with zero divisions) and C76_thin_layer_refuted (a layer of height zdet)."
  },
  {
   "property": "C77",
   "status": "proved",
   "theorems": [
    "C77_ring_2d",
    "C77_ring_3d",
    "C77_total_2d",
    "C77_total_3d",
    "C77_errors_2d",
    "C77_errors_3d",
    "C77_distinct_refuted"
   ],
   "note": "That rings never have overlapping points is false: C77_distinct_refuted (inner radius zero is accepted). Divisions finer than the tolerance of the searches in the reference space of the block (1e-4 sqrt(ndim)) are excluded by not_fine (see C45_merge_refuted)."
  },
  {
   "property": "C78",
   "status": "proved",
   "theorems": [
    "C78_cells_2d",
    "C78_cells_3d",
    "C78_edges_2d",
    "C78_edges_3d",
    "C78_faces_3d",
    "C78_total_2d",
    "C78_total_3d",
    "C78_single_refuted",
    "C78_exact_2d",
    "C78_exact_3d"
   ],
   "note": "Every node: within the tolerance of the searches of the place given by the map of its block and, if the block has conditions, by the rules of C47_positions (exactly, for the first block). Marks: for renumber = false (renumber_mesh leaves the marked edges and faces unchanged, see C08). Divisions finer than the tolerance of the searches are excluded by regions_fine. C78_total_2d/3d: blocks whose Jacobian at the centre exceeds the threshold and that have no node too close to the centre of a condition are meshed; the result is then that of join_meshes (C28) and renumber_mesh (C08). C78_exact_2d/3d: one_to_one, separated and enclosing (ExactSpec.v) say that the blocks fit together and that an extreme point in every direction belongs to one cell only (otherwise the internal boundary extraction may not enclose all points, see C59). That acceptable data always give a mesh is false: C78_single_refuted (one block)."
  },
  {
   "property": "C79",
   "status": "proved",
   "theorems": [
    "C79_disk_2d_a",
    "C79_disk_3d_a",
    "C79_disk_2d_b",
    "C79_disk_3d_b",
    "C79_plate_2d",
    "C79_plate_3d",
    "C79_errors_disk_2d_a",
    "C79_errors_disk_3d_a",
    "C79_errors_disk_2d_b",
    "C79_errors_disk_3d_b",
    "C79_errors_plate_2d",
    "C79_errors_plate_3d",
    "C79_total_disk_2d_a",
    "C79_total_disk_3d_a",
    "C79_total_disk_2d_b",
    "C79_total_disk_3d_b",
    "C79_total_plate_2d",
    "C79_total_plate_3d",
    "C79_exact_2d_a",
    "C79_exact_3d_a",
    "C79_one_2d_b",
    "C79_one_3d_b",
    "C79_one_plate_2d",
    "C79_one_plate_3d"
   ],
   "note": "C79_disk_*, C79_plate_*: contents of a mesh that was made. C79_errors_*: no divisions, wrong kinds, radii in the wrong order, flat blocks. C79_total_*: all blocks are meshed exactly; what remains is the result of join_meshes (C28) and renumber_mesh (C08). C79_exact_2d_a, C79_exact_3d_a: complete success with linear cells, any number of divisions; renumbering is renumber_mesh of the mesh without it (C08). C79_one_*: complete success of the B-versions and plates with one linear cell per block; exactness for more divisions of those is open. Divisions finer than the tolerance of the searches are excluded by coarse. Constants of russell_lab::math are the exact real numbers."
  },
  {
   "property": "C80",
   "status": "proved",
   "theorems": [
    "C80_tri3_new",
    "C80_tet4_new",
    "C80_other_kinds",
    "C80_tri3_vectors",
    "C80_tri3_matrices",
    "C80_tri3_stiffness",
    "C80_tri3_sides",
    "C80_tri3_side_panics",
    "C80_tet4_vectors",
    "C80_tet4_matrices",
    "C80_tet4_stiffness",
    "C80_qua4",
    "C80_qua8",
    "C80_qua8_btn",
    "C80_unique"
   ],
   "note": "All methods of the four structures. LinElasticity (russell_tensor) is outside: mat_10_bdb is proved for any modulus matrix of the right size. Degenerate elements (zero area, division by zero in the code) are excluded by solid_element, which C80_tri3_new and C80_tet4_new show to hold for every element with an area or volume. The vectors of AnalyticalTri3 are for two-dimensional pads (the constructor accepts a triangle in space and then uses x and y only)."
  },
  {
   "property": "C81",
   "status": "proved",
   "theorems": [
    "C81_from_trigen",
    "C81_from_tetgen",
    "C81_empty_output",
    "C81_empty_output_3d"
   ],
   "note": "The data read from Trigen and Tetgen (out_point, out_cell_point, out_segment, out_marked_face ...) are a record; an output whose cells have another number of nodes than announced is excluded by tri_fine and tet_fine."
  },
  {
   "property": "C82",
   "status": "proved",
   "theorems": [
    "C82_input",
    "C82_errors",
    "C82_region_inside_refuted"
   ],
   "note": "Triangle (crate tritet) is an oracle; its setters write slots and reject numbers out of range. C82_region_inside_refuted: the mean of the corners of a Qua4 dart is outside of the cell, so the region marker and its maximum area go to another region or to none."
  },
  {
   "property": "C83",
   "status": "proved",
   "theorems": [
    "C83_input",
    "C83_not_3d"
   ],
   "note": "Tet10 and Tet20 are excluded because of C20/C21 (faces of quadratic tetrahedra are looked up with four points). The documentation restricts shells to Tri3 and Qua4; the code accepts all and passes the points of a Tri6 or Qua8 in node order (corners first), which is not the boundary of the shell."
  },
  {
   "property": "C84",
   "status": "proved",
   "theorems": [
    "C84_polygon",
    "C84_corners",
    "C84_region_point",
    "C84_region_point_refuted",
    "C84_result",
    "C84_converted",
    "C84_errors",
    "C84_renumber_refuted"
   ],
   "note": "C84_polygon, C84_corners: the input; C84_region_point: inside if rmin + 0.0002 < rmax, C84_region_point_refuted: rmin = 1, rmax = 1.00001. C84_result: Tri3 and Tri6; C84_converted: Tri10 and Tri15 (arcs with a radius of at least 1e-10; the marked nodes of an edge shared with an earlier cell come from that cell). C84_renumber_refuted: after renumbering the edge marked -5 has an end at radius 2 (rmin = 1)."
  },
  {
   "property": "C85",
   "status": "proved",
   "theorems": [
    "C85_solid",
    "C85_closed",
    "C85_places",
    "C85_result",
    "C85_inner",
    "C85_errors",
    "C85_region_point_refuted"
   ],
   "note": "C85_result needs faces of the output with a marker that is not zero (a face marked zero would overwrite negative markers of its points). C85_region_point_refuted: thickness 0.00001."
  },
  {
   "property": "C86",
   "status": "proved",
   "theorems": [
    "C86_edges",
    "C86_faces",
    "C86_edges_fail",
    "C86_faces_fail",
    "C86_features",
    "C86_magnitude_refuted"
   ],
   "note": "The tangents in the specification are the partial derivatives of the isoparametric map. C86_magnitude_refuted: wrong magnitudes panic (approx_eq of russell_lab). For triangular faces the point is a corner, as in the code."
  },
  {
   "property": "C87",
   "status": "proved",
   "theorems": [
    "C87_edges",
    "C87_faces",
    "C87_cell_edge",
    "C87_cell_face"
   ],
   "note": "C87_faces is stated with sort4, the key of the code, and includes Tet10 and Tet20. Interior edges and faces (extract_all) get the direction of the first cell that has them."
  },
  {
   "property": "C88",
   "status": "proved",
   "theorems": [
    "C88_plane",
    "C88_line_plane",
    "C88_solid",
    "C88_shell",
    "C88_line_space",
    "C88_determined",
    "C88_errors",
    "C88_five_nodes_refuted"
   ],
   "note": "A canvas is the list of the commands sent to plotpy; DrawSpec.v says which Bezier pieces they show (C88_determined: only one picture fits). C88_five_nodes_refuted: a Lin5 drawn without passing through its middle node. Kinds of more dimensions than the space do not occur (C01)."
  },
  {
   "property": "C89",
   "status": "proved",
   "theorems": [
    "C89_edges",
    "C89_line",
    "C89_incomplete"
   ],
   "note": "Only the edges; the labels of the nodes and the plot object of draw_shape are not modelled."
  },
  {
   "property": "C90",
   "status": "proved",
   "theorems": [
    "C90_plane",
    "C90_space"
   ],
   "note": "DrawMeshSpec.v says what an arrow of an edge, a face or a shell is; the direction is stated as in C87. The iteration order of the maps of edges and faces only permutes the arrows. With no points listed (then there is nothing to draw) the length would come from f64::MIN - f64::MAX, the parameter `big`."
  },
  {
   "property": "C91",
   "status": "proved",
   "theorems": [
    "C91_edges_plane",
    "C91_edges_space",
    "C91_faces",
    "C91_interior_refuted"
   ],
   "note": "C91_interior_refuted: a marked edge between two cells gets no label with the boundary features that Draw::all uses. The tolerance is the one of set_tol_edge_marker: lines that deviate from an axis by less are taken as parallel to it."
  },
  {
   "property": "C92",
   "status": "proved",
   "theorems": [
    "C92_points",
    "C92_cells",
    "C92_convex",
    "C92_off_nodes",
    "C92_line_refuted"
   ],
   "note": "C92_line_refuted: the label of a straight Lin3 covers its middle node."
  },
  {
   "property": "C93",
   "status": "proved",
   "theorems": [
    "C93_cells",
    "C93_boundary_edges",
    "C93_boundary_faces",
    "C93_all"
   ],
   "note": "Everything sent to plotpy up to the configuration of the figure; C93_all composes C90 to C92 with C93_cells and the boundary. Callbacks, zoom, camera, ranges and the file are not modelled."
  },
  {
   "property": "C94",
   "status": "proved",
   "theorems": [
    "C94_edges_shared",
    "C94_faces_shared",
    "C94_boundary_edges",
    "C94_boundary_faces",
    "C94_neighbors"
   ],
   "note": "Composes C45 (lattice of points), C19 to C23; the opposite side and the next cell are determined by sums of lattice coordinates."
  },
  {
   "property": "C95",
   "status": "proved",
   "theorems": [
    "C95_edges",
    "C95_faces",
    "C95_marked_edges",
    "C95_marked_faces"
   ],
   "note": "Two-dimensional blocks: edges; three-dimensional: faces (marked edges of 3D blocks are in C61 as marks of the mesh)."
  },
  {
   "property": "C96",
   "status": "proved",
   "theorems": [
    "C96_sum_2d",
    "C96_sum_3d",
    "C96_circuits",
    "C96_normals_2d",
    "C96_faces",
    "C96_normals_3d",
    "C96_overlap_refuted",
    "C96_block"
   ],
   "note": "The direction of the edges and faces is a hypothesis (C96_overlap_refuted: positive areas are not enough); C96_block shows it for all blocks. Tet10 and Tet20 are excluded in 3D because Features keys their faces by four of the points (C20). C96_normals_3d is about Tet4 and Hex8; curved faces are not covered by it."
  },
  {
   "property": "C97",
   "status": "proved",
   "theorems": [
    "C97_area",
    "C97_volume"
   ],
   "note": "Straight cells: Tri3, Qua4, Tet4."
  },
  {
   "property": "C98",
   "status": "proved",
   "theorems": [
    "C98_edges_2d",
    "C98_faces",
    "C98_points_and_limits",
    "C98_neighbors",
    "C98_graph",
    "C98_pads",
    "C98_markers_refuted"
   ],
   "note": "Edges in 3D: same pairs of end points (their node lists may depend on the iteration order, C21). Quadratic and larger tetrahedra excluded in 3D (C20). C98_markers_refuted: markers of features do not follow the points."
  },
  {
   "property": "C99",
   "status": "proved",
   "theorems": [
    "C99_edge",
    "C99_face",
    "C99_force_2d",
    "C99_force_3d",
    "C99_face_moment",
    "C99_moment_3d",
    "C99_loads_exist"
   ],
   "note": "Exact arithmetic with the rounded tables of points and weights. Faces Tri3 and Qua4 only. Moments over Qua4 faces need at least four points. C99_loads_exist: with the default rules (which have enough points) the calls succeed on every edge and face of these meshes."
  },
  {
   "property": "C100",
   "status": "proved",
   "theorems": [
    "C100_corners",
    "C100_edges",
    "C100_neighbors",
    "C100_directed"
   ],
   "note": "Corners and end points; the nodes inside the edges are the subject of C48 and C69. The markers of edges are lost (C48_marked_edges_refuted)."
  },
  {
   "property": "C101",
   "status": "proved",
   "theorems": [
    "C101_points",
    "C101_edges_2d",
    "C101_faces_3d",
    "C101_neighbors",
    "C101_directed"
   ],
   "note": "Points of b that are nearer than twice the tolerance may be merged with each other through a point of a, therefore the hypothesis. Faces and edges meet if all their corners are merged."
  },
  {
   "property": "C102",
   "status": "proved",
   "theorems": [
    "C102_forces",
    "C102_rounding",
    "C102_tractions",
    "C102_stiffness",
    "C102_flux",
    "C102_conductivity"
   ],
   "note": "Plane stress, plane strain and 3D; not the axisymmetric case (there uniform stress does cause forces). Exact equality for cells with the same weight_ratio; C102_rounding for arbitrary rules. The loads of tractions only in 2D: in 3D the tables of triangles integrate the interpolation functions up to rounding only."
  },
  {
   "property": "C103",
   "status": "proved",
   "theorems": [
    "C103_search",
    "C103_cells",
    "C103_stat"
   ],
   "note": "Numbers and their order are modelled, not their formatting as text. The histogram is russell_stat's, taken to count the values in [i, i+1). Grids with large_pct = 1 are excluded as in C31."
  },
  {
   "property": "C104",
   "status": "proved",
   "theorems": [
    "C104_contains",
    "C104_exact",
    "C104_choice",
    "C104_negative_refuted"
   ],
   "note": "Negative multipliers: refuted (C104_negative_refuted). Only x and y have a range in config_plot_range, also for meshes in three dimensions."
  },
  {
   "property": "C105",
   "status": "proved",
   "theorems": [
    "C105_rigid",
    "C105_unique",
    "C105_solvable",
    "C105_kernel",
    "C105_heat",
    "C105_heat_solvable",
    "C105_hinge_refuted"
   ],
   "note": "Plane (no strain normal to the plane) and 3D; not the axisymmetric case; straight triangles and tetrahedra only, where every rule gives the exact stiffness up to a positive factor. C105_hinge_refuted: cells that share one point only can turn without forces. Regularity is stated as existence and uniqueness of the solution in exact arithmetic; the solver itself is not part of gemlab."
  },
  {
   "property": "C106",
   "status": "proved",
   "theorems": [
    "C106_definite",
    "C106_tensor",
    "C106_singular",
    "C106_default",
    "C106_qua17_refuted",
    "C106_step"
   ],
   "note": "C106_qua17_refuted: the default rule of Qua17 has 16 points for 17 nodes (gauss.rs:new), so its mass matrix is singular. Exact arithmetic with the tabulated points; the solver is not part of gemlab."
  },
  {
   "property": "C107",
   "status": "proved",
   "theorems": [
    "C107_internal",
    "C107_stiffness",
    "C107_reactions",
    "C107_heat",
    "C107_content",
    "C107_conserved",
    "C107_stable"
   ],
   "note": "Exact arithmetic. The assembly itself (adding up over the cells at shared points) is the user's loop, described by nodal_force and nodal_heat in UniqueSpec; gemlab computes the local vectors and matrices."
  },
  {
   "property": "C108",
   "status": "proved",
   "theorems": [
    "C108_qua",
    "C108_hex",
    "C108_qua_nothing",
    "C108_hex_nothing",
    "C108_refused",
    "C108_single_refuted"
   ],
   "note": "ToolsModel: the mains of qua2msh and hex2msh after the input has been read (command line, JSON input, messages and the SVG figure are not modelled; writing a text to a file always succeeds). C108_qua, C108_hex: what is in the files on success (uses C78, C16 and C49; ToolsProof.number_onto: every cell belongs to a region). C108_qua_nothing, C108_hex_nothing: all or nothing. C108_refused: other numbers of nodes. C108_single_refuted: one block is refused (join_meshes needs two meshes), for every number of nodes. C108_ex: two squares, with a printer and a reader of numbers for which the hypotheses hold."
  }
 ]
}