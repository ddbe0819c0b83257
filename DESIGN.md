# Formal model of gemlab (Rocq / Coq 8.16.1)

Target: `/repo` (cpmech/gemlab at the pinned commit), read as text only.
All Coq sources are under `rocq/theories` (logical prefix `Verif`).

## Layout

For each area `X` of the code there are up to four files:

* `XModel.v`  -- total, computable Gallina transcription of the Rust functions, function by
  function; each definition cites file and lines.  `Result`/`Option` stay data, panics are an
  explicit outcome, `&mut` functions return the new value.
* `XSpec.v`   -- small declarative specification (relations, walks, sets) that does not mention
  the helpers of the model.
* `XProof.v`  -- lemmas.
* `PropX.v`   -- the property theorems only (`Theorem ... exact lemma. Qed.`), an `Example`
  showing a concrete non-trivial instance of the hypotheses, and `Print Assumptions`.

## Numbers

* Topological code (graphs, features, edges, faces, joins, renumbering, text format): `nat`,
  `Z`, lists.  `usize`/`i32` ranges are modelled only in the text format (where parsing can
  fail because of them); elsewhere indices are unbounded naturals.
* Floating point code is modelled in exact arithmetic: `Coq.Reals.R` for theorems about
  continuous quantities, `Q` where execution is wanted.  Rounding is NOT modelled; every
  theorem about coordinates is a theorem about the algorithm in exact arithmetic.
* Hash containers (`HashMap`, `HashSet`) are modelled as association lists/sets in insertion
  order; where the code's result could depend on iteration order the theorem is stated for the
  part that does not (or for every order).

## Plan per property

| id | model | proof method |
|----|-------|--------------|
| C01 | `cuthill_mckee` queue loop over rows sorted by (degree,id), fuel = nnode | loop invariant: queue/ordering duplicate-free, visited = ordering+queue; connectivity gives completeness |
| C02 | same | BFS level invariant |
| C03 | `shortest_path_bfs` (parent array + walk back) | BFS invariant relating parent/distance to walks |
| C04 | `calc_distance` | BFS invariant |
| C05 | connectivity check loop of `from_adjacency_set` | BFS reachability invariant |
| C06 | `from_mesh` adjacency sets, sorted rows, degree, nedge | set reasoning over cells |
| C07 | `calc_bandwidth` double loop | fold-max characterisation |
| C08 | `renumber_points` with its checks | permutation arguments; Err characterisation |
| C09 | same model | `_refuted` witness + positive statement for the part that holds |
| C10 | `pseudo_peripheral` bounded loop | loop invariant on eccentricity |
| C11 | matrix initialisation + triple loop, weights in extended Q/R | classical FW induction over k, against infimum over walks |
| C12 | `path` following next-hop table | invariant of next table; strict decrease of remaining walk |
| C13-C15, C57 | grid containers as association list key -> (id, coords); exact reals | history invariant; floor arithmetic |
| C16-C18 | text printer and line/token parser over `string`, coordinates abstract with an explicit printer/parser pair satisfying `parse (print x) = Some x` | induction over lines/tokens, decimal number codec proved |
| C19-C25 | feature extraction on meshes with `GeoKind` tables | association-list invariants, counting |
| C26, C58 | `search_point_ids`, the grid of `Features::new` | `_refuted` for the ignored filter + positive statement for the other variants; limits of the features |
| C27 | `any_path` | loop invariant |
| C28, C59 | `join_two_meshes`, `join_meshes` with the grid model | invariant over points/cells, first/last entry of the marker maps |
| C29, C30 | checks and marked queries | induction on lists |
| C31 | GridCells | floor arithmetic + barycentric facts |
| C32, C33, C56 | geometry functions over R | algebra (nra/field), minimality over all points of entity |
| C34-C38 | all 20 shape files generated from the Rust text by `tools/gen_shapes.py` as expression trees; generic evaluator, polynomial normaliser proved sound | reflection: polynomial identity checked by computation, lifted to all reals by the soundness theorem |
| C39, C40 | GeoKind tables, names | finite exhaustive computation over kinds (20) plus string induction |
| C41-C43 | Scratchpad functions over R | algebra |
| C44 | triangulation tables | polynomial identity over arbitrary node coordinates |
| C45-C47, C54, C61, C62 | Block | loop invariants, algebra, trigonometry |
| C48, C69, C70 | `convert_2d` | loop invariant: origin of each new point; continuity of interpolation across edges |
| C73, C74 | `mesh/triangulate_surface.rs`, `shapes/scratchpad_triangulate.rs`, `features.rs` triangulate_3d_boundary | numbering by first appearance; edge cancellation from the triangulation tables and from the faces of each solid kind; the map of faces and owners of C20 |
| C75 | `mesh/check.rs` check_overlapping_points, `get_limits` | invariant of the grid (C13, C14) for all insertions; order of each container arbitrary |
| C76 | `generators_qua_hex.rs` rectangle | boxes of each block (C45), joined one by one: shared sides coincide exactly (C28), tiling by ordered ticks, renumbering (C08) |
| C77 | `generators_qua_hex.rs` quarter_ring_2d, quarter_ring_3d | positions of C45 with the ring map of C46; injectivity of polar coordinates |
| C78 | `generators_qua_hex.rs` from_blocks_2d, from_blocks_3d | blocks by C45–C47 with the marks of C61; moved maps of join_meshes (C28, C59) |
| C79 | `generators_qua_hex.rs` quarter_disk_2d_a, 2d_b, 3d_a, 3d_b, quarter_plate_hole_2d, 3d | corners in polar coordinates, blocks by C45–C47, joined by C28/C59; separation and enclosure of all nodes of the A-version |
| C80 | `integ/analytical_tri3.rs`, `analytical_tet4.rs`, `analytical_qua4.rs`, `analytical_qua8.rs` | methods translated by `tools/gen_analytical.py` (AnaData.v); integrands as combinations of products of interpolation functions, whose integrals are known (C50's integrals of monomials) |
| C81–C85 | `generators_tri_tet.rs` | Triangle and Tetgen as oracles with records for input and output; slots filled by loops described in closed form; features by C21, conversion by C48/C69, renumbering by C08 |
| C86, C87 | `check.rs` checks of normals, edges and faces of Features | derivative of the position along the edge/face by conformity (C38) and the chain rule; the sign is that of a determinant in reference space, checked for all kinds |
| C88, C89 | `draw_cell.rs`, `scratchpad_draw_shape.rs` | the commands sent to the canvas are read as Bezier pieces; a Bezier curve with the control points of the code is the interpolation of the line, an identity of polynomials per kind; rows of nodes by evaluation |
| C90–C93 | `draw.rs` (687-1115) | the loops over maps and marked features become lists; the direction of the arrows from C87; extents by an invariant of the loop over the points; the edges of boundary faces from the map of faces; label positions by evaluation over Q per kind |
| C94–C95 | `block.rs:subdivide` with `features.rs` | no new model: the sides of the cells are lists of lattice points (C45); equal sides by the sums of the lattice coordinates along each axis, node tables by evaluation; counts by a bijection between features and (cell, side) pairs |
| C96, C97 | `features.rs`, `scratchpad_calc_normal_vector.rs` | no new model: sums over the lists of Features regrouped into pairs of (cell, edge) that cancel and those with one cell; the fundamental theorem of calculus along curved edges; blocks by C94 and a table of the rotations between opposite faces |
| C98 | `mesh.rs`, `features.rs`, `graph_und.rs` | no new model: the specifications of C06, C08, C19-C22, C23 applied to both meshes; scratchpads are equal because the same coordinates are written in the same order |
| C99 | `vec_02_nv.rs`, `features.rs` | no new model: the nodal forces of an edge add up to a quadrature of the derivative of its coordinates (partition of unity), bounded against the exact integral by the error of the tables on polynomials (C29); the exact integrals cancel by C96 |
| C100 | `convert_2d.rs`, `features.rs` | no new model: C48 makes the corners of both meshes correspond; edges of the cells correspond because the tables of both kinds start with the same two corners; then as for C98 |
| C101 | `join_meshes.rs`, `features.rs` | no new model: C28 says where points and cells go; edges (faces) of the joined mesh are a disjoint union of those of a and the moved ones of b, so 'belongs to exactly one cell' splits into two cases; then as for C98 |
| C102 | `vec_04_bt.rs`, `mat_10_bdb.rs`, `vec_03_bv.rs`, `mat_03_btb.rs`, `vec_02_nv_bry.rs`, `features.rs` | no new model: determinant times gradient of Tri3, Qua4, Tet4 by cofactors; its sum over the integration points is half (a third) of the normal vectors at the node, for Qua4 because the first moments of the tables vanish exactly (computed); then the sum over the cells is a sum over edges (faces), and C96 leaves the boundary |
| C103 | `grid_search.rs` (fmt), `grid_cells.rs` (fmt, stat) | the maps of containers have distinct keys and no empty container (invariants of the insertions); listing = sorted keys; counting by permutations of duplicate-free lists |
| C104 | `draw.rs` (config_plot_range, choice in all) | limits of the mesh (C55) |
| C105 | `mat_10_bdb.rs`, `mat_03_btb.rs`, `mesh.rs` (get_pad), `gauss.rs` | no new model: nodal values on a triangle or tetrahedron are those of a linear function, so the values of C102 apply to any displacements; the sum over the points of displacement times force is the sum of the energies of the cells, all non-negative; zero energy makes each cell rigid, shared points pass the motion on; existence from uniqueness by elimination (LinearProof) |
| C106 | `mat_01_nsn.rs`, `mat_08_ntn.rs`, `mat_03_btb.rs`, `gauss.rs` | no new model: the quadratic form is the weighted sum of the squares of the interpolated values at the points; the interpolation matrices have full rank (C72) so it vanishes for zero nodal values only; with fewer points than nodes a combination with zero values exists (LinearProof); time steps as in C105 |
| C107 | `vec_04_bt.rs`, `mat_10_bdb.rs`, `mat_03_btb.rs`, `mat_01_nsn.rs` | no new model: a sum over the points is a sum over the cells and their nodes (ConserveProof.assembled); balance of each cell from C63, C64 (with the symmetry of C52), zero rows of C52; stability from the quadratic form of the difference of the old and new temperatures |
| C108 | `bin/qua2msh.rs`, `bin/hex2msh.rs` | ToolsModel: target, mesh, MSH text, VTU text; result and list of written files. On top of C78 (contents of the mesh), C16 (reading again) and C49 (VTU). Not modelled: command line, JSON, screen, figure, failing disks |
| C71, C72 | `recovery/*.rs` | rank certificates for all interpolation matrices (fixed-point evaluation with error bounds); Penrose equations; affine reproduction |
| C49 | contents of the VTU file as text | lines and words of the text; running totals; table of VTK node coordinates |
| C50 | Gauss tables as exact rationals | reflection + linear extension to all polynomials |
| C51-C53, C63-C68 | integration loops with arbitrary callbacks | sums, partition of unity, ring |

## Trusted base

Coq 8.16.1 kernel (including `vm_compute`), the transcription of Rust into Gallina described by
the comments of the model files, and the axioms listed by `Print Assumptions` (see the end of
this file, updated at every milestone).

## Not modelled

Rounding of `f64`, `plotpy` itself (C88 to C93 cover the commands it receives), colours and widths of lines, file I/O proper (only the text produced and
consumed), the binaries in `src/bin` other than qua2msh and hex2msh (C108), memory/time behaviour, `russell_lab` internals (matrix
inverse, pseudo-inverse, norms are modelled by their mathematical meaning), the generators Triangle and
Tetgen themselves.

## Conventions of the models

* `res A` (Base.v) = `Ok a | Err message | Panic | OutOfFuel`; a theorem that states `= Ok _` excludes
  the other outcomes.  Error messages are kept where the code has literal ones.
* Iteration over a hash map/set: the model visits an arbitrary reordering (`shuffle` with
  `forall l, Permutation (shuffle l) l`, or a listing given as argument).  Maps are association
  lists with distinct keys.
* `sort`, `sort_by`, `sort2`, `sort3`, `sort4` (std and russell_lab): ascending insertion sort.
* Meshes are polymorphic in the coordinate type `T`; comparisons are a total order `leb` on `T`
  (for `f64`: no NaN).
* `usize::MAX` as fourth entry of a triangular face key: the key is a list of three points.

* `GridSearch`: the halo buffer is returned instead of being stored; casts to `usize` are integer
  parts (no saturation); filter closures are pure functions; the result sets are duplicate-free lists.
* `GridCells`: `f64::MAX`/`f64::MIN` as initial extremes are `None`; `f64::MIN` that survives as side
  length is the real number -(2^1024 - 2^971).
* Geometry: real arithmetic; degenerate simplices (division by zero in the code) are outside the
  hypotheses of the theorems.

* Texts (C16-C18): a text is a list of Unicode code points; `str::lines`, `split_whitespace`, `trim_*`,
  `usize`/`i32` parsing and printing are modelled; f64 parsing and `{:?}` are parameters of the theorems.
  `read`/`write` are modelled on the contents of the file (no I/O errors, contents are valid UTF-8);
  allocation failure for an absurd `ndim` is not modelled.  A marked face with fourth point
  `usize::MAX` is the same as one without (None).

* Scratchpad (C41-C43, C60): matrices are lists of rows over R; `mat_inverse` (russell_lab) is the
  adjugate formula with an Err when |det| <= `zdet` (a parameter of all theorems; 1e-15 in the library);
  the contents of the pad after an Err are not modelled; a zero extent in `approximate_ksi` (NaN in the
  code, after which no residual test succeeds) is an Err at once.

* Block (C45-C47, C54, C61, C62): coordinates over R; `f64::sin/cos/atan2` and the like are the real
  functions; the scratch fields of `self.pad` are not returned; `new_square*`, `new_cube*` and drawing are
  not modelled.  The tolerance of the point search is 1e-4 (default of GridSearch) in reference space.
* Integration points: every number of the tables is the exact binary64 value of the source
  expression (`tools/gen_gauss.py`), an integer multiple of 2^-62.
* Integration (`integ/*.rs`): the closures are functions of the index of the point, the interpolation
  functions N and the gradients B (the user's closure may capture anything, but it is a pure function
  here). The contents of the vector or matrix after an Err, and of the second scratchpad after a call,
  are not modelled. Mandel components are those of `russell_tensor` (factor sqrt 2 off the diagonal).
  The axisymmetric `mat_10_bdb` divides by the radius: theorems require points off the axis.
* Closed forms (`integ/analytical_*.rs`): the straight-line methods are translated by
  `tools/gen_analytical.py`; constructors, side integrals and mat_10_bdb are written by hand. Tensors are
  Mandel vectors; `LinElasticity` is external (mat_10_bdb gets its modulus matrix as an argument).
* Conversion (`convert_2d`): the entry `usize::MAX` of an unset node is None; the assertion on the number
  of nodes (less than `usize::MAX`) is not modelled.

* VTU (C49): the contents of the file; directories and I/O errors are not modelled; f64 `{:?}` is a parameter.
  The node order of the VTK cell types is part of the trusted specification (`VtuSpec.vtk_nodes`).

* Recovery (C71, C72): `mat_inverse` and `mat_pseudo_inverse` are arbitrary functions in the model; the theorems assume
  that what they return is the inverse, or satisfies the four Penrose equations (C72_total also that they return
  something). The tables `TR_PINV_HXI_*` are the exact binary64 values (multiples of 2^-114, `tools/gen_recovery.py`).
  The code does not compare the class of the rule with that of the element; the theorems do. `RecoveryCert.v`
  (`tools/gen_recovery_cert.py`) holds approximate inverses that are checked, not trusted.

* Triangulation (C73, C74): coordinates over R; a cell of the surface (trait `AsCell`) is its kind with its list of points; the
  messages of the panics and `draw` functions are not modelled; the iteration order of the map of faces is arbitrary.
* Overlapping points (C75): coordinates over R; each container of the grid has its own arbitrary but fixed iteration order; the
  message printed before the error is left out; limits of an empty mesh are an error of the grid.
* Quarter disks and plates (C79): the constants SQRT_2, ONE_BY_SQRT_2, SIN_PI_BY_8, COS_PI_BY_8 and COS_PI_BY_4 of russell_lab::math are modelled as the exact real numbers.
* Structured generators (C76–C79): as for blocks (C45) and joined meshes (C28), with the same tolerance of the searches, iteration orders
  and `zdet`; statements with an unconditional result require nodes further apart than the tolerance and blocks larger than 4 zdet.
* Unstructured generators (C81–C85): Trigen and Tetgen of the crate tritet are records of slots (their setters reject numbers out of range,
  their constructors small sizes as documented there); the meshes they generate are arbitrary oracles of the input and the options. A map of
  maximum areas is a list of pairs.
* Pictures (C90–C93): the canvases of a new `Draw` are empty and each is the list of what it received; `big` stands for `f64::MIN - f64::MAX` in the
  length of arrows when no points are listed; the text of a label is its two numbers; the callbacks, the zoom and the figure are not modelled (`config_plot_range`: C104).
* Drawing (C88, C89): a Canvas is the list of commands; the scratch fields of the pad used by draw_shape are not returned; labels of nodes are not modelled.
* Normal vectors (C86, C87): the solutions are a list in any order; approx_eq (russell_lab) is a panic beyond the tolerance.
* `MoreModel.v` (get_density, non_zero_pattern, check_all, pairs of cells via several features): the frame of the printed pattern consists of the
  characters `+`, `-`, `|` instead of box characters; the density is an exact fraction.

## Findings (theorems named `_refuted`)

Each is a concrete input for which the faithful model violates a natural expectation.

* C01: `cuthill_mckee` on a disconnected graph (connectivity check switched off).
* C09: renumbering leaves `marked_edges`/`marked_faces` untouched.
* C10: `pseudo_peripheral` may stop at its limit of 10 iterations.
* C11/C12: parallel edges (last one counts), self-loops (replace the zero diagonal).
* C20, C21: face keys of Tet10/Tet20 include a middle node, so two cells sharing a face may have
  different keys; the interior face is then reported twice as boundary face and the marker of a
  triangular marked face is lost.
* C24: `get_cells_via_2d_edges` repeats cells (documented in the code).
* C27: `any_path` may use an edge twice when there is a branch, against the documentation
  ("takes first available edge not yet used").
* C29: `check_ids_and_kind` does not check the number of coordinates.
* C13: inserting an id again elsewhere keeps the old copy in the grid; a search may return an id
  whose current position is far away.
* C14: `search` compares with sqrt(ndim)*tolerance, but points in another container are only found
  when every coordinate differs by at most `tolerance`; `ndiv = 1` is documented as valid and always
  rejected.
* C26: `search_point_ids` ignores the filter for `At::XY` in 2D and `At::XYZ` in 3D.
* C58: `Features::new` panics for a valid mesh whose feature points are all on one axis-parallel line
  or plane.
* C59: `join_two_meshes` panics when the second mesh has a marked triangular face (index `usize::MAX`).
* C31: `GridCells::new` accepts `large_pct = 1.0`; when all cells are large the side length is f64::MIN
  and every interior point is "outside the grid"; triangles in 3D are tested with x and y only, so a
  point off the plane of the triangle (but in its bounding box) is reported as inside.
* C16: a mesh with marked edges or faces but no cells is printed, but `from_text` fails on the text.
* C17: a header with `ndim` < 2 makes `from_text` panic; point ids of cells may be out of range; values
  after the fourth point of a marked face are ignored (they are errors in every other row).
* C41: setting only the last component of the coordinates matrix (in any order of calls) raises `ok_xxt`.
* C42: `calc_normal_vector` works on a pad whose coordinates were never set (all other functions fail).
* C60: `check_jacobian` looks at one point per cell; a non-convex quadrilateral with a negative
  determinant near a corner passes.
* C45: divisions narrower than the tolerance are accepted; distinct nodes of one cell are merged.
* C46: `set_transform_into_ring` accepts negative radii.
* C47: a node on two constrained sides satisfies only one of the constraints. Middle nodes of edges that lead away
  from a constrained side follow the moved corner only if the corner was really moved.
* C54: `set_ndiv` with a zero returns Err after changing the directions before the zero.
* C50: the rules Tri 4 and Tet 5 have a negative weight; the default rule of Qua17 (16 points) does not
  integrate the products of its interpolation functions (all other kinds have the exact degree for it).
* C52: the consistent mass matrix is indefinite with the rule Tri 4 (negative weight).
* C53: `mat_10_bdb_alt` panics when the matrix is larger than the element matrix and ignores `ii0`, `jj0`.
* C68: over a surface in 3D `scalar_field`, `vec_01_ns` and `vec_02_nv` use the -1 that `calc_jacobian`
  returns for such pads as the determinant: the result is minus the sum of the weighted values, whatever
  the coordinates.
* C48: `convert_2d` drops the marked edges.
* C69: `convert_2d` assumes that neighbours run along the shared edge in opposite senses; a clockwise cell
  beside a counterclockwise one gets the inner nodes of the edge in the wrong order.
* C70: `convert_2d` may panic for a mesh with triangles and quadrilaterals.
* C72: the interpolation matrix of Qua12 with 9 points, Qua17 with 16 (its default), Hex8 with 6, Hex32 with 27 (and,
  up to rounding, Tet20 with 15) has dependent rows: values at the points that no nodal values reproduce.
* C72: with one integration point a constant field is not recovered at the nodes of Qua8 (-1/5 at the corners, 2/5 at
  the middle nodes, instead of 1).
* C74: interior faces between ten-node tetrahedra are triangulated with the boundary (see C20).
* C75: `check_overlapping_points` may miss two points that are arbitrarily near, if they lie in neighbouring containers: each
  search returns the first item in hash order, possibly the point itself. A mesh flat along an axis is always an error.
* C76: `rectangle` panics (does not return an error) if a layer has zero divisions or a block has an area of at most 4 zdet; `nb` must
  be positive even without `xb`; `renumber` is ignored for a single layer without `xb`.
* C77: quarter rings accept a zero inner radius (all nodes of the inner arc are different points at the origin).
* C78: from_blocks_2d and from_blocks_3d need two blocks (join_meshes rejects a single mesh); weights are ignored in all directions if those of one direction are missing.
* C79: only the B-versions check their radii (r > a); a plate with -r <= a <= 0 or a solid with h <= 0 is rejected by the check of the Jacobian at the centre of Block::new, and a disk with 0.071 r² <= zdet likewise (not a check of r itself).
* C82: the point of the region of a cell that is not convex may be outside of the cell.
* C84, C85: the point of the region (0.0001 away from the inner radius, the x axis and z = 0) is outside of thin rings and plates; with
  `renumber` the marked edges and faces keep the old numbers; Tri10 and Tri15 meshes lose the marked edges and ignore `renumber`.
* C86: `check_2d_edge_normals` and `check_face_normals` panic (do not return an error) for a wrong magnitude.
* C96: cells that overlap (with positive areas, run through a common edge in the same direction) have a boundary in Features that is not closed.
* C98: after renumbering, markers of edges and faces stay with the old numbers of the points (a consequence of C09).
* C91: marked edges between two cells of the plane get no label with `Draw::all` (in space all marked edges do, even those that no cell has).
* C92: the label of a straight Lin3 is on its middle node.
* C88: lines and edges with five nodes (Lin5, Tri15, Qua17) are drawn as cubics and may miss their own nodes.
* (not a theorem) `call_tetgen` does not check that shells are Tri3 or Qua4.
* (not a theorem) the 14-point tetrahedron rule is documented with degree 4 and has degree 5.
* (not a theorem) `set_div_weights_*` accept negative weights as long as the sum is at least one.
* (not a theorem) with a ring and constraints, middle nodes are put on straight edges of the cells.
* (not a theorem) `search_on_line`/`search_on_cylinder` on an empty grid accept a degenerate axis.

## Axioms

`Print Assumptions` under the theorems lists nothing but these axioms of the standard library (those
about reals only for statements over R; the mesh algorithms, names and tables are closed):

* `ClassicalDedekindReals.sig_forall_dec`, `ClassicalDedekindReals.sig_not_dec` (construction of R)
* `FunctionalExtensionality.functional_extensionality_dep` (construction of R)
* `Classical_Prop.classic` (lemmas of `Reals` and of Coquelicot)

## Wrong programs (seeded/LOG.jsonl)

Each line is one edit of a model file in a scratch copy. `first_failures` are the lemmas at which Coq reported an error.
`theorems_failed` are the theorems that use one of these lemmas (found from the names in the sources), unless the note says
that they were compiled one by one: a listed theorem lost its proof, it was not shown to be false. Runs that only hit a time
limit are not counted as failures. Edits that change nothing that can be observed are marked as equivalent programs.
