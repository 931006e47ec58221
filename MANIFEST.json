{
 "claims": [
  {
   "property": "C01",
   "status": "proved",
   "theorems": [
    "C01_nested_vec_refines_vec_of_vecs",
    "C01_appender_count"
   ],
   "note": "Every history of public operations, including leaked appenders, simulates the same history on lists of lists."
  },
  {
   "property": "C02",
   "status": "proved",
   "theorems": [
    "C02_roundtrip_lists",
    "C02_roundtrip_nested",
    "C02_eq_is_extensional",
    "C02_eq_with_leak_refuted"
   ],
   "note": "Equality half needs the no-leak hypothesis; the refutation shows why."
  },
  {
   "property": "C03",
   "status": "proved",
   "theorems": [
    "C03_try_from_iff_disjoint",
    "C03_hash_order_irrelevant"
   ],
   "note": "For every hash-set iteration order."
  },
  {
   "property": "C04",
   "status": "proved",
   "theorems": [
    "C04_each_subset_once",
    "C04_split_at_len_refuted"
   ],
   "note": "For every split tree with 0 <= index < len and every next/next_back script. The refutation records that index = len, which rayon allows, panics."
  },
  {
   "property": "C05",
   "status": "proved",
   "theorems": [
    "C05_accesses_in_bounds_and_disjoint",
    "C05_block_accesses_in_bounds_and_disjoint"
   ],
   "note": "Covers both safe constructors and the block adapter."
  },
  {
   "property": "C06",
   "status": "proved",
   "theorems": [
    "C06_release_panics_only_out_of_range",
    "C06_debug_refuted"
   ],
   "note": "Proved for release builds; refuted for debug builds, as the property states."
  },
  {
   "property": "C07",
   "status": "proved",
   "theorems": [
    "C07_coloring_partitions"
   ],
   "note": "For families of at most i32::MAX subsets (the code panics on a colour counter overflow otherwise)."
  },
  {
   "property": "C08",
   "status": "proved",
   "theorems": [
    "C08_coloring_greedy_bound"
   ],
   "note": "Third clause: colours <= 1 + maximal number of earlier conflicting subsets."
  },
  {
   "property": "C09",
   "status": "proved",
   "theorems": [
    "C09_serial_vector_assembly"
   ],
   "note": "For every previous workspace content and every error/panic outcome of the element callback. Hypothesis on the callback: its result depends on the element only, not on the old contents of the reused buffer."
  },
  {
   "property": "C10",
   "status": "proved",
   "theorems": [
    "C10_parallel_vector_deterministic",
    "C10_no_deadlock"
   ],
   "note": "Interleavings of individual loads and stores of all tasks of one colour, any split tree; addition arbitrary. Lost updates without disjointness are shown possible in the same semantics."
  },
  {
   "property": "C11",
   "status": "proved",
   "theorems": [
    "C11_parallel_agrees_with_serial"
   ],
   "note": "For associative and commutative addition (exact arithmetic), and connectivities accepted by the colouring. C100_vector bounds the difference in double arithmetic."
  },
  {
   "property": "C12",
   "status": "proved",
   "theorems": [
    "C12_pattern_is_coupling_graph",
    "C12_block_rows_equal",
    "C12_pattern_unique"
   ],
   "note": "For every hash-set order and buffer content; the pattern is unique."
  },
  {
   "property": "C13",
   "status": "proved",
   "theorems": [
    "C13_parallel_pattern",
    "C13_writes_partition"
   ],
   "note": "All schedules of the lock-protected insertions and of the unchecked column stores, all batch sizes (10 in the code)."
  },
  {
   "property": "C14",
   "status": "proved",
   "theorems": [
    "C14_assemble_into_csr",
    "C14_assemble",
    "C14_entry_unique"
   ],
   "note": "For every previous workspace content and every error/panic outcome of the element callback; argsort is any sorting permutation (unstable sorts included)."
  },
  {
   "property": "C15",
   "status": "proved",
   "theorems": [
    "C15_assembly_never_panics_refuted",
    "C15_panics_iff_repeated_node"
   ],
   "note": "Refuted as the property states; the second theorem gives the exact condition for the panic."
  },
  {
   "property": "C16",
   "status": "proved",
   "theorems": [
    "C16_parallel_csr_deterministic",
    "C16_parallel_agrees_with_serial"
   ],
   "note": "Interleavings of single loads and stores of all tasks of one colour; addition arbitrary for determinism, associative and commutative for agreement with serial assembly. C100_csr bounds the difference in double arithmetic."
  },
  {
   "property": "C17",
   "status": "proved",
   "theorems": [
    "C17_symmetry",
    "C17_additive",
    "C17_additive_map"
   ],
   "note": "Symmetry holds bit for bit for any addition; linearity for associative and commutative addition, and for every entry-wise additive map (scaling)."
  },
  {
   "property": "C18",
   "status": "proved",
   "theorems": [
    "C18_dirichlet_csr",
    "C18_symmetry_kept",
    "C18_repeated_nodes",
    "C18_system",
    "C18_without_structural_symmetry_refuted"
   ],
   "note": "Column half refuted without structural symmetry, as stated. Also: symmetric matrices stay symmetric, repeated nodes are harmless, and the solutions of the constrained system are characterised (needs the constrained diagonal entries to be stored)."
  },
  {
   "property": "C19",
   "status": "proved",
   "theorems": [
    "C19_dirichlet_matrix",
    "C19_dirichlet_rhs",
    "C19_system"
   ],
   "note": "Matrix and system over the reals; right-hand side for any scalar type."
  },
  {
   "property": "C20",
   "status": "proved",
   "theorems": [
    "C20_serial_scalar",
    "C20_parallel_scalar"
   ],
   "note": "Parallel part: any reduction tree, addition associative with neutral zero. C100_scalar bounds the difference in double arithmetic."
  },
  {
   "property": "C21",
   "status": "proved",
   "theorems": [
    "C21_gather_copies",
    "C21_scatter_adds",
    "C21_gather_scatter_adjoint"
   ],
   "note": "Adjointness over any commutative semiring."
  },
  {
   "property": "C22",
   "status": "proved",
   "theorems": [
    "C22_from_vec_ok",
    "C22_from_vec_err",
    "C22_from_vec_total_refuted",
    "C22_inverse",
    "C22_apply",
    "C22_apply_inverse",
    "C22_reverse"
   ],
   "note": "Constructor, inverse, apply_to_slice, reverse; totality of the constructor refuted (out-of-range entries panic)."
  },
  {
   "property": "C23",
   "status": "proved",
   "theorems": [
    "C23_cuthill_mckee_permutation",
    "C23_reverse_cuthill_mckee_permutation"
   ],
   "note": "For every valid square pattern and every admissible result of the unstable sort; fuel shown sufficient."
  },
  {
   "property": "C24",
   "status": "proved",
   "theorems": [
    "C24_cuthill_mckee_order"
   ],
   "note": "cm_order: grouped by earliest discoverer, non-decreasing degree within a group, restarts at the first least-degree unplaced vertex."
  },
  {
   "property": "C25",
   "status": "proved",
   "theorems": [
    "C25_apply_preserves_mesh",
    "C25_reorder_mesh_par"
   ],
   "note": "apply for all matching permutations; reorder_mesh_par for every schedule, hash order and tie-breaking. Cells must refer to existing vertices (otherwise the code panics)."
  },
  {
   "property": "C26",
   "status": "proved",
   "theorems": [
    "C26_boundary_faces",
    "C26_boundary_cells",
    "C26_boundary_vertices"
   ],
   "note": "All connectivity types; two faces count as the same when their sorted index lists agree (multisets of vertices)."
  },
  {
   "property": "C27",
   "status": "proved",
   "theorems": [
    "C27_keep_cells",
    "C27_keep_cells_coordinates"
   ],
   "note": "keep_cells on in-range meshes and in-range cell lists, repeats allowed; panics are explicit."
  },
  {
   "property": "C28",
   "status": "proved",
   "theorems": [
    "C28_refine",
    "C28_area",
    "C28_conforming",
    "C28_repeat"
   ],
   "note": "Vertices of a refined mesh are characterised by a duplicate-free list of names (used vertex or undirected edge); any hash order; real arithmetic."
  },
  {
   "property": "C29",
   "status": "proved",
   "theorems": [
    "C29_tri6",
    "C29_quad9",
    "C29_tet10",
    "C29_hex20",
    "C29_hex27"
   ],
   "note": "One theorem per conversion. Node tables are the documented (gmsh) ones from FacesSpec. Quad9 cell centres are never shared, also for duplicate cells."
  },
  {
   "property": "C30",
   "status": "proved",
   "theorems": [
    "C30_quad_mesh",
    "C30_hex_mesh",
    "C30_tet_mesh"
   ],
   "note": "For all positive counts: exact vertex and cell counts, every cell positively oriented with exactly the expected measure, measures add up to the box. Quad, hex and BCC tet meshes; the tet construction never panics. Disjointness of interiors is not stated."
  },
  {
   "property": "C31",
   "status": "proved",
   "theorems": [
    "C31_empty_box",
    "C31_empty_box_refuted"
   ],
   "note": "Refuted as stated, with an exact characterisation of when the meshes are empty."
  },
  {
   "property": "C32",
   "status": "proved",
   "theorems": [
    "C32_construction",
    "C32_dispatch",
    "C32_dispatch_std",
    "C32_empty_assembler_refuted",
    "C32_bound_refuted"
   ],
   "note": "Dispatch proved for any binary search with the documented contract if no assembler is empty, and for the current library search without that hypothesis; refuted for empty assemblers under the contract; the off-by-one of the bounds assertion is a theorem."
  },
  {
   "property": "C33",
   "status": "proved",
   "theorems": [
    "C33_workspace",
    "C33_last"
   ],
   "note": "All histories; refinement to one independent cell per type id."
  },
  {
   "property": "C34",
   "status": "proved",
   "theorems": [
    "C34_general",
    "C34_uniform",
    "C34_uniform_data",
    "C34_compact",
    "C34_compact_general",
    "C34_no_data"
   ],
   "note": "All three table types: construction succeeds exactly on consistent input, all queries characterised including wrong buffer sizes and element indices; compact table equals the expanded general table."
  },
  {
   "property": "C35",
   "status": "proved",
   "theorems": [
    "C35_interpolate",
    "C35_short_vector",
    "C35_from_space",
    "C35_no_elements_refuted"
   ],
   "note": "Values and gradients, for all layouts and for interpolators built from a space; panics for short vectors; documented behaviour on a space without elements refuted."
  },
  {
   "property": "C36",
   "status": "proved",
   "theorems": [
    "C36_success",
    "C36_relative_residual",
    "C36_limit",
    "C36_terminates",
    "C36_errors",
    "C36_indefinite_operator_refuted",
    "C36_iterations"
   ],
   "note": "C36_success/_relative_residual (true residual meets the criterion), C36_limit, C36_terminates, C36_iterations, C36_errors for all operators, preconditioners, criteria and dimensions; C36_indefinite_operator_refuted shows the blame can be wrong. Exact reals, not floating point."
  },
  {
   "property": "C37",
   "status": "proved",
   "theorems": [
    "C37_conjugate",
    "C37_finite",
    "C37_solves"
   ],
   "note": "C37_conjugate and C37_finite for every run of the solver, C37_solves: total correctness in at most n iterations. Exact reals."
  },
  {
   "property": "C38",
   "status": "proved",
   "theorems": [
    "C38_ok",
    "C38_errors",
    "C38_terminates",
    "C38_newton",
    "C38_affine"
   ],
   "note": "All functions, solvers, line searches that keep the function value, limits and dimensions; exact reals."
  },
  {
   "property": "C39",
   "status": "proved",
   "theorems": [
    "C39_accepts",
    "C39_fails",
    "C39_terminates",
    "C39_complete",
    "C39_newton"
   ],
   "note": "For all functions, points and directions; C39_complete gives success exactly when a trial length works; C39_newton lifts it to Newton's method. Exact reals."
  },
  {
   "property": "C40",
   "status": "proved",
   "theorems": [
    "C40_gradient",
    "C40_gradient_error",
    "C40_jacobian",
    "C40_jacobian_total"
   ],
   "note": "Exactness on quadratics and second-order error bound (Taylor-Lagrange) for every dimension; exact reals."
  },
  {
   "property": "C41",
   "status": "proved",
   "theorems": [
    "C41_enclose",
    "C41_from_points",
    "C41_contains",
    "C41_intersects",
    "C41_closest",
    "C41_furthest",
    "C41_grow",
    "C41_scale",
    "C41_corners"
   ],
   "note": "Every dimension; exact reals."
  },
  {
   "property": "C42",
   "status": "proved",
   "theorems": [
    "C42_closest_point",
    "C42_closest_point_2d",
    "C42_half_plane",
    "C42_polygon",
    "C42_segments",
    "C42_segments_refuted",
    "C42_plane_closest",
    "C42_plane_intersect"
   ],
   "note": "Closest point in any dimension (also degenerate segments), exact half-plane and polygon clipping of segments as point sets, segment-segment intersection (sound; complete when not parallel; overlapping parallel segments refuted), closest point to and intersection with a plane. Exact reals."
  },
  {
   "property": "C43",
   "status": "proved",
   "theorems": [
    "C43_line",
    "C43_segment",
    "C43_refuted"
   ],
   "note": "Refuted as stated. C43_segment characterises the result in all cases; C43_line is the exact statement for lines."
  },
  {
   "property": "C44",
   "status": "proved",
   "theorems": [
    "C44_convex",
    "C44_polygon",
    "C44_area",
    "C44_vertices"
   ],
   "note": "For all vertex lists: areas of the two complementary clips add up, the expect never fires, vertices are inside and on edges. For convex polygons the result is convex again and its hull is exactly the inside part; also for clipping by a polygon of at least three vertices."
  },
  {
   "property": "C45",
   "status": "proved",
   "theorems": [
    "C45_shoelace",
    "C45_rotate",
    "C45_reverse",
    "C45_affine",
    "C45_fan",
    "C45_triangulate",
    "C45_convex_triangulate"
   ],
   "note": "Shoelace area, rotation, reversal, affine maps (multiplied by the determinant, so translations and rotations keep it), fans from any point and from the first vertex."
  },
  {
   "property": "C46",
   "status": "proved",
   "theorems": [
    "C46_exact",
    "C46_convex",
    "C46_refuted"
   ],
   "note": "Refuted as stated for a concave quadrilateral; C46_exact gives the exact condition, C46_convex the convex case."
  },
  {
   "property": "C47",
   "status": "proved",
   "theorems": [
    "C47_refuted"
   ],
   "note": "Refuted as stated, by a segment through the unit square."
  },
  {
   "property": "C48",
   "status": "proved",
   "theorems": [
    "C48_contains_refuted",
    "C48_clip_refuted",
    "C48_empty_first",
    "C48_contains"
   ],
   "note": "Both halves refuted as stated; C48_contains and C48_empty_first give what holds."
  },
  {
   "property": "C49",
   "status": "proved",
   "theorems": [
    "C49_index_set",
    "C49_rotation",
    "C49_equivalence"
   ],
   "note": "Every comparator, length, dimension and range."
  },
  {
   "property": "C50",
   "status": "proved",
   "theorems": [
    "C50_dedup",
    "C50_connectivity",
    "C50_boundary"
   ],
   "note": "Hypothesis: face and vertex indices in bounds, which from_poly_data asserts. 'Same vertices' means equal as multisets: the code compares sorted index lists."
  },
  {
   "property": "C51",
   "status": "proved",
   "theorems": [
    "C51_partition_of_unity",
    "C51_nodal"
   ],
   "note": "Over the exact reals, for Segment2, Tri3, Tri6, Quad4, Quad9, Tet4, Tet10, Tet20, Hex8, Hex20, Hex27; rests on the standard axioms of R (and classic via Coquelicot where derivatives occur)."
  },
  {
   "property": "C52",
   "status": "proved",
   "theorems": [
    "C52_gradients",
    "C52_gradients_sum_to_zero"
   ],
   "note": "Over the exact reals, for Segment2, Tri3, Tri6, Quad4, Quad9, Tet4, Tet10, Tet20, Hex8, Hex20, Hex27; rests on the standard axioms of R (and classic via Coquelicot where derivatives occur)."
  },
  {
   "property": "C53",
   "status": "proved",
   "theorems": [
    "C53_reproduction",
    "C53_geometry"
   ],
   "note": "Over the exact reals, for Segment2, Tri3, Tri6, Quad4, Quad9, Tet4, Tet10, Tet20, Hex8, Hex20, Hex27; rests on the standard axioms of R (and classic via Coquelicot where derivatives occur)."
  },
  {
   "property": "C54",
   "status": "proved",
   "theorems": [
    "C54_triangle",
    "C54_gauss",
    "C54_quadrilateral",
    "C54_hexahedron",
    "C54_univariate"
   ],
   "note": "Exact reals. C54_quadrilateral and C54_hexahedron hold for any 1D rule; C54_gauss combines them with C80 for exact roots. C54_univariate, C54_triangle: weights, points and exactness of the subdivided rules for every number of pieces."
  },
  {
   "property": "C55",
   "status": "proved",
   "theorems": [
    "C55_polynomial",
    "C55_neo_hookean",
    "C55_one_dimension_refuted",
    "C55_operator"
   ],
   "note": "C55_polynomial (all dimensions), C55_neo_hookean (2D, 3D), C55_operator; C55_one_dimension_refuted: in 1D the Neo-Hookean energy uses log_det_F, which is wrong there, so the undeformed state has no energy and the stress is not the derivative."
  },
  {
   "property": "C56",
   "status": "proved",
   "theorems": [
    "C56_polynomial",
    "C56_neo_hookean",
    "C56_symmetry",
    "C56_batch_functions",
    "C56_batch",
    "C56_operator"
   ],
   "note": "Derivatives, symmetry, batches."
  },
  {
   "property": "C57",
   "status": "proved",
   "theorems": [
    "C57_log_det",
    "C57_one_dimension_refuted"
   ],
   "note": "C57_log_det in 2D and 3D; C57_one_dimension_refuted: in 1D the logarithm of the entry of du/dX itself is returned."
  },
  {
   "property": "C58",
   "status": "proved",
   "theorems": [
    "C58_extract_surface_mesh"
   ],
   "note": "Any mesh of any connectivity type with in-range indices."
  },
  {
   "property": "C59",
   "status": "proved",
   "theorems": [
    "C59_faces_exist",
    "C59_faces_closed",
    "C59_tet4_outward",
    "C59_hex8_outward",
    "C59_quadratic_faces_conform"
   ],
   "note": "Face existence for all types; closedness for Tet4/Tet10/Hex8/Hex20/Hex27 corners; outward normals for all positively oriented tetrahedra and parallelepipeds (not for general trilinear hexahedra, whose faces need not be planar); midpoint conventions for Tet10/Hex20/Hex27."
  },
  {
   "property": "C60",
   "status": "proved",
   "theorems": [
    "C60_element_conversion"
   ],
   "note": "Over the exact reals, for Segment2, Tri3, Tri6, Quad4, Quad9, Tet4, Tet10, Tet20, Hex8, Hex20, Hex27; rests on the standard axioms of R (and classic via Coquelicot where derivatives occur)."
  },
  {
   "property": "C62",
   "status": "proved",
   "theorems": [
    "C62_orthonormal"
   ],
   "note": "Exact reals."
  },
  {
   "property": "C63",
   "status": "proved",
   "theorems": [
    "C63_signed_distance",
    "C63_distance"
   ],
   "note": "Signed distance and distance to the filled triangle, all points; the distance needs counterclockwise orientation, as the code assumes."
  },
  {
   "property": "C64",
   "status": "proved",
   "theorems": [
    "C64_vertices",
    "C64_area_along",
    "C64_area",
    "C64_projection"
   ],
   "note": "C64_vertices in any dimension; C64_area_along for all polygons and directions along the plane; C64_area for planar polygons not parallel to the plane; C64_projection ties area_vector to the shoelace formula of the projections. Real arithmetic."
  },
  {
   "property": "C65",
   "status": "proved",
   "theorems": [
    "C65_closest",
    "C65_sign",
    "C65_distance"
   ],
   "note": "C65_closest for all nonempty polygons; C65_sign and C65_distance for strictly convex counterclockwise polygons. The sign for polygons that are not convex is not covered. T::max_value is taken to be infinite; real arithmetic."
  },
  {
   "property": "C66",
   "status": "proved",
   "theorems": [
    "C66_concatenate"
   ],
   "note": "Hypothesis: each mesh has indices in bounds."
  },
  {
   "property": "C67",
   "status": "proved",
   "theorems": [
    "C67_keep_cells",
    "C67_polygons"
   ],
   "note": "Hypothesis: mesh and cell indices in bounds; out of bounds the code panics."
  },
  {
   "property": "C68",
   "status": "proved",
   "theorems": [
    "C68_split_edges",
    "C68_split_edges_n"
   ],
   "note": "For any midpoint function; since the midpoint of an edge is computed for the first orientation seen, the theorem says mid(a,b) or mid(b,a)."
  },
  {
   "property": "C70",
   "status": "proved",
   "theorems": [
    "C70_triangulate",
    "C70_to_tet",
    "C70_triangulate_to_tet",
    "C70_to_tet_refuted"
   ],
   "note": "Refuted part: C70_to_tet_refuted (split_edges of a tetrahedron, then try_from panics). The remaining claims are proved as stated."
  },
  {
   "property": "C71",
   "status": "proved",
   "theorems": [
    "C71_mesh_to_poly",
    "C71_boundary",
    "C71_hex_to_tet"
   ],
   "note": "Hypotheses: mesh indices in bounds, face table of the connectivity in bounds (proved for the types of the crate in C59)."
  },
  {
   "property": "C69",
   "status": "proved",
   "theorems": [
    "C69_clip",
    "C69_closed",
    "C69_clip_all",
    "C69_half_spaces",
    "C69_volume_refuted",
    "C69_sphere_refuted"
   ],
   "note": "Refuted as stated for the volume (C69_volume_refuted) and for the sphere (C69_sphere_refuted); the topological and geometric statements hold (C69_clip, C69_closed, C69_clip_all, C69_half_spaces)."
  },
  {
   "property": "C72",
   "status": "proved",
   "theorems": [
    "C72_area",
    "C72_volume",
    "C72_convex",
    "C72_tetrahedron",
    "C72_parallelepiped"
   ],
   "note": "Exact reals."
  },
  {
   "property": "C73",
   "status": "proved",
   "theorems": [
    "C73_contains",
    "C73_signed_distance",
    "C73_tetrahedron",
    "C73_tetrahedron_distance",
    "C73_parallelepiped"
   ],
   "note": "Exact reals; a convex body is given by its faces with inward unit normals such that each face is the part of the body in its plane. Tetrahedra and parallelepipeds are shown to be such bodies. Hexahedra with non-planar or non-parallel faces are covered only through the general theorem's hypotheses."
  },
  {
   "property": "C74",
   "status": "proved",
   "theorems": [
    "C74_bound",
    "C74_winding_refuted",
    "C74_orientation"
   ],
   "note": "Refuted as stated, with a bound for all triangle lists and an exact value at a witness. Division by zero is 0 in the model, where floats give an infinite tangent and an angle of exactly pi; the bound is then attained, so in floats a winding number of one needs all four denominators of the tetrahedron to vanish. The witness -1/2 has no zero denominator."
  },
  {
   "property": "C75",
   "status": "proved",
   "theorems": [
    "C75_lame",
    "C75_undeformed",
    "C75_objective_stvk",
    "C75_objective_nh",
    "C75_objective_linear_refuted",
    "C75_energy"
   ],
   "note": "Linear elasticity is refuted to be frame indifferent, as expected of the theory."
  },
  {
   "property": "C76",
   "status": "proved",
   "theorems": [
    "C76_accumulate",
    "C76_energy",
    "C76_vector_is_gradient",
    "C76_matrix_is_jacobian",
    "C76_laplace",
    "C76_laplace_matrix",
    "C76_polynomial_materials",
    "C76_neo_hookean"
   ],
   "note": "Exact reals. The finite element is an arbitrary record of functions: nothing is assumed about its basis functions, so the theorem covers every element type. C76_vector_is_gradient and C76_matrix_is_jacobian are generic; C76_laplace, C76_polynomial_materials and C76_neo_hookean instantiate them."
  },
  {
   "property": "C77",
   "status": "proved",
   "theorems": [
    "C77_mass",
    "C77_mass_form",
    "C77_source",
    "C77_gravity"
   ],
   "note": "Exact reals; arbitrary elements. The call never reports a singular Jacobian: degenerate elements contribute with determinant 0."
  },
  {
   "property": "C78",
   "status": "proved",
   "theorems": [
    "C78_tables",
    "C78_elements",
    "C78_consistent",
    "C78_laplace",
    "C78_polynomial_materials",
    "C78_neo_hookean"
   ],
   "note": "Global consistency from local consistency (C76) with arbitrary workspaces at every evaluation; serial assembly, parallel assembly agrees by C11, C16, C20. Exact reals."
  },
  {
   "property": "C79",
   "status": "proved",
   "theorems": [
    "C79_mass",
    "C79_source",
    "C79_gravity",
    "C79_laplace"
   ],
   "note": "Bilinear forms of the assembled CSR matrices. Exact reals."
  },
  {
   "property": "C80",
   "status": "proved",
   "theorems": [
    "C80_sharp",
    "C80_legendre",
    "C80_shape",
    "C80_exact",
    "C80_zeros",
    "C80_middle",
    "C80_close"
   ],
   "note": "Exact reals. The root search is an argument of the model, so exactness is stated for an exact search, with C80_close for approximate ones; that the Newton iteration of the code converges is C103. Rounding is not modelled. Tabulated Gauss-Lobatto rules are in C91. C80_sharp: no polynomial of degree exactly 2n is integrated exactly, so the degree is optimal."
  },
  {
   "property": "C81",
   "status": "proved",
   "theorems": [
    "C81_mass",
    "C81_stiffness",
    "C81_mass_refuted",
    "C81_stiffness_refuted",
    "C81_mass_matrix",
    "C81_stiffness_matrix"
   ],
   "note": "Refuted as stated for hexahedra (mass) and for quadrilaterals and hexahedra (stiffness): C81_mass_refuted, C81_stiffness_refuted. C81_mass and C81_stiffness give the elements on which the documentation is right; C81_mass_matrix and C81_stiffness_matrix carry this to the element matrices of the model of the assembly (C76, C77). The tabulated rules for triangles and tetrahedra are arguments that are assumed exact up to their strength; the Gauss rules use exact roots (C80). The integral over the physical element is the integral over the reference element times the absolute determinant. Real numbers instead of floats."
  },
  {
   "property": "C82",
   "status": "proved",
   "theorems": [
    "C82_select",
    "C82_order"
   ],
   "note": "C82_select characterises success of the build and the selected rule; C82_order is independence of the listing order. The generated Rust source is modelled by what it computes."
  },
  {
   "property": "C83",
   "status": "proved",
   "theorems": [
    "C83_decimal",
    "C83_text"
   ],
   "note": "C83_text for the file format (any parser of single numbers), C83_decimal for plain decimals, against Flocq's rounding. Decimals with exponents are not modelled; three of the shipped files have one."
  },
  {
   "property": "C84",
   "status": "proved",
   "theorems": [
    "C84_tables"
   ],
   "note": "The shipped files up to the strengths named are in PolyquadData.v verbatim. Files of higher strength are not covered, but may be present. Sums are exact; C100_tables adds the rounding of the summation."
  },
  {
   "property": "C85",
   "status": "proved",
   "theorems": [
    "C85_tables",
    "C85_element",
    "C85_volume_element",
    "C85_mesh_integral",
    "C85_mesh_volume_integral",
    "C85_integrators_agree",
    "C85_volume_form"
   ],
   "note": "Volume form, elements, meshes and tables. Reduction in parallel is covered by C20. Integrands of several components: only the first enters the scalar of a mesh, as in the code."
  },
  {
   "property": "C86",
   "status": "proved",
   "theorems": [
    "C86_l2",
    "C86_l2_seminorm",
    "C86_h1",
    "C86_h1_seminorm",
    "C86_elements",
    "C86_mass",
    "C86_laplace"
   ],
   "note": "Exact reals: the rounding of the sums and of the square root is not modelled."
  },
  {
   "property": "C87",
   "status": "proved",
   "theorems": [
    "C87_tri3d2",
    "C87_tri3d3",
    "C87_in_element_refuted",
    "C87_tet4"
   ],
   "note": "Last clause refuted as stated by C87_in_element_refuted (positive tolerance); the rest is proved. Exact reals with an arbitrary tolerance in place of default_epsilon."
  },
  {
   "property": "C88",
   "status": "proved",
   "theorems": [
    "C88_search",
    "C88_mesh",
    "C88_exact"
   ],
   "note": "The R-tree of the rstar crate enters by the contract of its nearest_neighbor_iter (permutation of the entries, sorted by dist2_to); C88_example discharges it with a sorting function. Quad4, Hex8 and higher orders have no closest points in the code."
  },
  {
   "property": "C89",
   "status": "proved",
   "theorems": [
    "C89_values",
    "C89_gradients",
    "C89_pointwise",
    "C89_pointwise_gradient",
    "C89_fixed",
    "C89_mesh",
    "C89_mesh_affine",
    "C89_mesh_bounds",
    "C89_conforming",
    "C89_nodal",
    "C89_mesh_gradient"
   ],
   "note": "Mesh statements: tolerance 0 for bounds and well-definedness, any tolerance otherwise. Meshes of the three element types with closest points (Tri3d2, Tri3d3, Tet4)."
  },
  {
   "property": "C90",
   "status": "proved",
   "theorems": [
    "C90_diameter",
    "C90_map",
    "C90_map_simplex",
    "C90_map_singular",
    "C90_project",
    "C90_project_simplex",
    "C90_quad_refuted",
    "C90_project_terminates_refuted",
    "C90_project_quad",
    "C90_quad_converges",
    "C90_quad_twenty"
   ],
   "note": "Refuted in part as stated: C90_quad_refuted (nearly straight corner, twenty iterations do not reach a vertex) and C90_project_terminates_refuted (Gauss-Newton cycles between two points). Convergence is proved for all simplex elements and for bilinear quadrilaterals, not for trilinear hexahedra; for those the returned coordinates are still correct (C90_map)."
  },
  {
   "property": "C91",
   "status": "proved",
   "theorems": [
    "C91_available",
    "C91_accuracy",
    "C91_sharp"
   ],
   "note": "Accuracy of the tables by a verified fixed-point computation with 64 fractional bits over all literals; quadrature sums in exact reals over the doubles. For 128, 256 and 512 points only degrees up to 31 are checked, to bound the time of the proof checker."
  },
  {
   "property": "C92",
   "status": "proved",
   "theorems": [
    "C92_load",
    "C92_panic",
    "C92_tags",
    "C92_tags_refuted",
    "C92_in_range_refuted",
    "C92_convention"
   ],
   "note": "Refuted as stated for files whose smallest node tag is not 1 (C92_tags_refuted) and for the range of node numbers (C92_in_range_refuted); all else proved for the parsed file. Parsing bytes (crate mshio) is not modelled; the meaning of its fields (tags absent if consecutive, smallest tag) is taken from its documentation."
  },
  {
   "property": "C93",
   "status": "proved",
   "theorems": [
    "C93_build",
    "C93_unambiguous",
    "C93_size",
    "C93_type",
    "C93_size_refuted",
    "C93_vectors",
    "C93_scalars",
    "C93_data",
    "C93_version"
   ],
   "note": "Refuted as stated for nine-node quadrilaterals (C93_size_refuted). Writing bytes (crate vtkio) is not modelled. The number of cells is stored modulo 2^32. Data arrays have the type of the coordinates in the model."
  },
  {
   "property": "C94",
   "status": "proved",
   "theorems": [
    "C94_region",
    "C94_lipschitz",
    "C94_outside",
    "C94_boundary",
    "C94_inside",
    "C94_union_refuted",
    "C94_bounds",
    "C94_gradient",
    "C94_project",
    "C94_box_centre",
    "C94_gradient_refuted",
    "C94_corner",
    "C94_project_refuted"
   ],
   "note": "Refuted as stated for values inside unions (C94_union_refuted), gradients of boxes (C94_gradient_refuted, for every box C94_box_centre) and moving points beyond corners (C94_project_refuted, for all boxes C94_corner); all else proved. Real arithmetic instead of floating point."
  },
  {
   "property": "C95",
   "status": "proved",
   "theorems": [
    "C95_box",
    "C95_panic",
    "C95_voxelize",
    "C95_near",
    "C95_small_circle",
    "C95_cover_refuted",
    "C95_pull_in",
    "C95_quad",
    "C95_quad_refuted",
    "C95_triangles"
   ],
   "note": "Refuted as stated for covering the region (C95_cover_refuted, for all small circles C95_small_circle) and for boxes (C95_quad_refuted); all else proved. Real arithmetic instead of floating point, where the recomputed number of cells may be larger by one."
  },
  {
   "property": "C61",
   "status": "proved",
   "theorems": [
    "C61_tet20",
    "C61_shared",
    "C61_map",
    "C61_panic",
    "C61_shared_refuted",
    "C61_tet4",
    "C61_roundtrip"
   ],
   "note": "Refuted as stated for cells that repeat a vertex (C61_shared_refuted); all else proved. Exact reals; the standard library's binary search enters by its contract."
  },
  {
   "property": "C96",
   "status": "proved",
   "theorems": [
    "C96_gradient",
    "C96_hessian",
    "C96_hessian_wrong",
    "C96_rotation",
    "C96_iterates",
    "C96_step",
    "C96_fixed",
    "C96_converges_refuted"
   ],
   "note": "Refuted as stated for the Hessian (C96_hessian_wrong characterises when it is right) and for convergence (C96_converges_refuted); all else proved. Over the reals."
  },
  {
   "property": "C97",
   "status": "proved",
   "theorems": [
    "C97_rotation_svd",
    "C97_rotations",
    "C97_diag_left_mul",
    "C97_min_max",
    "C97_condition",
    "C97_condition_refuted"
   ],
   "note": "Refuted as stated for the condition number of indefinite matrices (C97_condition_refuted; C97_condition gives the positive and the negative case). Over the reals; nalgebra's SVD and eigenvalues are inputs."
  },
  {
   "property": "C98",
   "status": "proved",
   "theorems": [
    "C98_reshape",
    "C98_reshape_only",
    "C98_reshape_refuted",
    "C98_coerce",
    "C98_coerce_refuted",
    "C98_flatten_into",
    "C98_flatten",
    "C98_prefix_sum",
    "C98_extract",
    "C98_iter",
    "C98_integrate",
    "C98_convert"
   ],
   "note": "Refuted as stated for reshaping strided views (C98_reshape_refuted; C98_reshape_only shows exactly column-major views are kept) and for coercing part of a column (C98_coerce_refuted); all else proved."
  },
  {
   "property": "C99",
   "status": "proved",
   "theorems": [
    "C99_signed_distance",
    "C99_complement",
    "C99_complement_refuted",
    "C99_surface",
    "C99_edges",
    "C99_plane",
    "C99_space",
    "C99_orientation",
    "C99_orientation3",
    "C99_orientation3_refuted"
   ],
   "note": "Refuted as stated for disjointness of complements (C99_complement_refuted; C99_complement gives the intersection) and for the orientation of a triangle in space (C99_orientation3_refuted, C99_orientation3); all else proved. Over the reals."
  },
  {
   "property": "C100",
   "status": "proved",
   "theorems": [
    "C100_integrate",
    "C100_tables",
    "C100_fold",
    "C100_tree",
    "C100_growth",
    "C100_scalar",
    "C100_vector",
    "C100_csr",
    "C100_order_refuted"
   ],
   "note": "Refuted as stated for bitwise agreement (C100_order_refuted). All else proved, with Flocq's binary64 arithmetic. The values that the callbacks return are given; C100_tables takes the error of the computed function values as a parameter."
  },
  {
   "property": "C101",
   "status": "proved",
   "theorems": [
    "C101_element_quantities",
    "C101_transform_vector",
    "C101_transform_matrix",
    "C101_transform_scalar",
    "C101_additive",
    "C101_relabel_vector",
    "C101_merge_vector",
    "C101_relabel_matrix",
    "C101_merge_matrix",
    "C101_bodies_vector",
    "C101_bodies_matrix",
    "C101_out_of_range"
   ],
   "note": "Matrix statements need elements without repeated nodes (C15), also after relabelling. C101_merge_* need commutative addition. Transformations keep the size of the view."
  },
  {
   "property": "C102",
   "status": "proved",
   "theorems": [
    "C102_mass",
    "C102_stiffness"
   ],
   "note": "C81 for the tables themselves instead of ideal rules: table values are the rounded doubles of the files (C83, C84), the arithmetic of the assembly is exact. The norm of the inverse Jacobian is the Frobenius norm."
  },
  {
   "property": "C103",
   "status": "proved",
   "theorems": [
    "C103_search",
    "C103_rule",
    "C103_tensor"
   ],
   "note": "Exact reals: the code runs in doubles, where the last steps may be dominated by rounding; the bound 10^-15 for the last step is the one of the code. The model bounds the loop by a number of steps, and the theorem holds for every bound of at least five, so the unbounded loop ends after at most five."
  },
  {
   "property": "C104",
   "status": "proved",
   "theorems": [
    "C104_mass",
    "C104_stiffness",
    "C104_quadrilateral"
   ],
   "note": "Exact reals. C81 states exactness for an exact root search; this is the version for the search of the code. For hexahedra with a determinant of higher degree the rules are not exact even with an exact search (C81)."
  },
  {
   "property": "C105",
   "status": "proved",
   "theorems": [
    "C105_poisson",
    "C105_elasticity",
    "C105_poisson_mesh",
    "C105_elasticity_mesh",
    "C105_young_poisson"
   ],
   "note": "Exact reals. Holding cell by cell is sufficient, not necessary. The matrix product of nalgebra-sparse is modelled by what it computes; the assemblers are the sequential ones (C11 and C16 relate the parallel ones to them)."
  },
  {
   "property": "C106",
   "status": "proved",
   "theorems": [
    "C106_virtual_work",
    "C106_force",
    "C106_torque",
    "C106_materials",
    "C106_rigid_motion",
    "C106_elastic_matrix",
    "C106_spaces",
    "C106_converted",
    "C106_converted_tet20"
   ],
   "note": "Exact reals. Surface and curve meshes are not included. Where a Neo-Hookean material is inverted the code returns infinity and NaN; the theorem on rigid motions counts such points with energy and stress zero on both sides."
  },
  {
   "property": "C107",
   "status": "proved",
   "theorems": [
    "C107_simplices",
    "C107_poisson",
    "C107_elasticity",
    "C107_mass_matrix",
    "C107_mass",
    "C107_stiffness",
    "C107_reduced"
   ],
   "note": "Exact reals for rules, assembly and solver; decimals of the tables are those of the files. Elasticity is shown for affine cells with nodes in place; for other quadrilaterals and hexahedra only the Poisson problem and the mass matrix. The condition on fixed nodes for elasticity is sufficient, not necessary."
  },
  {
   "property": "C108",
   "status": "proved",
   "theorems": [
    "C108_patch"
   ],
   "note": "Exact reals. The condition on rules is exact up to a common factor: for Tri3 and Tet4 it holds for every rule shared by all cells (so for the canonical ones), for Quad4 for every shared rule whose odd moments vanish. The canonical rules of the other types, with decimals from tables or Newton steps, meet it only approximately. Tet20 is not covered: it has no face connectivity in the code."
  },
  {
   "property": "C109",
   "status": "proved",
   "theorems": [
    "C109_quad_mesh",
    "C109_tri_mesh",
    "C109_hex_mesh",
    "C109_poisson",
    "C109_elasticity",
    "C109_mass_matrix",
    "C109_patch",
    "C109_unit"
   ],
   "note": "Exact reals. The tetrahedral mesh of a box is covered by C110."
  },
  {
   "property": "C110",
   "status": "proved",
   "theorems": [
    "C110_tet_mesh",
    "C110_unit",
    "C110_dirichlet"
   ],
   "note": "Exact reals. The consequences (solvable problems, definite mass matrices, patch test) are C109_poisson, C109_elasticity, C109_mass_matrix and C109_patch, which take any mesh with the proved properties."
  },
  {
   "property": "C111",
   "status": "proved",
   "theorems": [
    "C111_unique_poisson",
    "C111_unique_elasticity",
    "C111_affine",
    "C111_affine_mesh"
   ],
   "note": "Exact reals. The part on affine functions is for triangle and tetrahedral meshes: the Gauss rules of quadrilaterals and hexahedra integrate only up to the accuracy of Newton's method, so forces of affine states on those meshes vanish only approximately."
  }
 ]
}