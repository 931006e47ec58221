{"id": "C01", "title": "NestedVec behaves like a vector of vectors", "statement": "After any finite history of the public mutating operations of NestedVec (new, push, begin_array followed by any number of push_single and a drop, clear, element writes through get_mut/first_mut/last_mut), every observer (len, get, first, last, iter, iter_array_elements, total_num_elements, and count on a live appender) returns exactly what the same history produces on an ordinary Vec<Vec<T>>; no observer panics.", "quantifier": "every element type, every finite sequence of operations, every index", "why_tests_cant": "The representation stores offsets into one shared buffer; a test sees a few histories, while the claim is about every history and every interleaving of appenders, clears and writes.", "anchors": [{"file": "fenris-nested-vec/src/lib.rs", "symbols": ["NestedVec", "ArrayAppender"]}]}
{"id": "C02", "title": "NestedVec equality and conversions are extensional", "statement": "Converting a Vec<Vec<T>> to a NestedVec and back returns the original; and two NestedVecs obtained by arbitrary public histories that do not leak an appender compare equal with == exactly when they hold the same lists in the same order. (Leaking an appender with mem::forget breaks the equality half: shown as a refutation.)", "quantifier": "all vectors of vectors; all pairs of operation histories", "why_tests_cant": "Equality is derived on the offset representation, so it could distinguish equal contents built differently; only a proof over all histories excludes that.", "anchors": [{"file": "fenris-nested-vec/src/lib.rs", "symbols": ["NestedVec", "From<&Vec<Vec<T>>>", "PartialEq"]}]}
{"id": "C03", "title": "DisjointSubsets constructor accepts exactly the disjoint families", "statement": "DisjointSubsets::try_from_disjoint_subsets with one label per subset returns Ok exactly when no index occurs in two different subsets (repeats inside one subset are allowed), returns Err otherwise, and panics exactly when the number of labels differs from the number of subsets. On Ok the subsets and labels are the ones passed in.", "quantifier": "all families of index lists and label lists, any hash-set iteration order", "why_tests_cant": "Soundness of unsafe parallel writes rests on this check; tests sample families, and the iteration order of the hash set is unspecified.", "anchors": [{"file": "fenris-paradis/src/lib.rs", "symbols": ["DisjointSubsets::try_from_disjoint_subsets"]}]}
{"id": "C04", "title": "Parallel subset iteration yields each subset exactly once", "statement": "However rayon splits the iterator returned by subsets_par_iter (any tree of split points with 0 <= index < len) and however each piece is consumed (any interleaving of next and next_back until exhaustion), the multiset of (label, indices) pairs handed to the closure is exactly the list of subsets with their labels, each once, and the reported length of a piece is the number of items it still yields.", "quantifier": "all families, all split trees, all next/next_back interleavings", "why_tests_cant": "The split tree depends on the scheduler and the number of threads, so tests observe only a few schedules.", "anchors": [{"file": "fenris-paradis/src/lib.rs", "symbols": ["DisjointSubsetsProducer", "DisjointSubsetsIter", "subsets_par_iter"]}]}
{"id": "C05", "title": "Unchecked parallel accesses are in bounds and never alias", "statement": "For a DisjointSubsets value obtained from either safe constructor (try_from_disjoint_subsets or the greedy colouring), if subsets_par_iter on a storage does not panic then every index that any SubsetAccess passes to the unchecked accessors is smaller than the storage length, and two accesses handed out for different subsets never touch the same index. The same holds at the level of individual scalars when the storage is wrapped in a BlockAdapter with any positive block size dividing the storage length.", "quantifier": "all families, all storages, all block sizes, all pairs of accesses", "why_tests_cant": "This is the memory-safety contract of unsafe code: a race or out-of-bounds access is invisible to a passing test.", "anchors": [{"file": "fenris-paradis/src/lib.rs", "symbols": ["SubsetAccess::get", "SubsetAccess::get_mut", "DisjointSubsets::subsets_par_iter"]}, {"file": "fenris-paradis/src/adapter.rs", "symbols": ["BlockAdapter::with_block_size", "BlockAccess"]}]}
{"id": "C06", "title": "Starting a parallel iteration only panics on out-of-range indices", "statement": "subsets_par_iter panics exactly when some subset contains an index not below the storage length (as documented). This is false in debug builds: a family whose subsets are all empty trips an internal sanity check although no index is out of range.", "quantifier": "all families and storage lengths", "why_tests_cant": "The failing inputs are degenerate families that the generator in the test-suite happens never to iterate over.", "anchors": [{"file": "fenris-paradis/src/lib.rs", "symbols": ["DisjointSubsets::subsets_par_iter"]}]}
{"id": "C07", "title": "Greedy colouring partitions the subsets into conflict-free colours", "statement": "sequential_greedy_coloring terminates and returns colours such that each input subset occurs in exactly one colour, with its own position as label and its contents unchanged, labels increase inside a colour, every colour is non-empty, and no two subsets of one colour share an index. The max index recorded is the maximum over the colour so each colour equals what the checked constructor would return.", "quantifier": "all families of index lists (with repeats, empty lists, arbitrary large indices)", "why_tests_cant": "Parallel assembly is only race-free if this holds for every mesh; tests use small random families.", "anchors": [{"file": "fenris-paradis/src/coloring.rs", "symbols": ["sequential_greedy_coloring"]}, {"file": "src/assembly/global.rs", "symbols": ["color_nodes"]}]}
{"id": "C08", "title": "Greedy colouring is greedy: bounded number of colours", "statement": "Every subset placed in the k-th colour shares an index with some subset, earlier in the input, of each of the preceding colours; hence the number of colours is at most one plus the maximum number of other subsets any subset conflicts with, and at most the number of subsets. Consequently the overflow panic on the colour counter is unreachable for inputs with fewer than 2^31-1 subsets.", "quantifier": "all families of index lists", "why_tests_cant": "An existential over all earlier colours for every subset, on every input.", "anchors": [{"file": "fenris-paradis/src/coloring.rs", "symbols": ["sequential_greedy_coloring"]}]}
{"id": "C09", "title": "Serial vector assembly is the sum of element contributions", "statement": "VectorAssembler::assemble_vector_into on an output of the right length adds to every degree of freedom exactly the contributions of all (element, local node) pairs whose global node owns that degree of freedom, in element order, and leaves the others untouched; if some element fails, the first failing element's error is returned and only earlier elements have contributed. The result does not depend on the contents of the reused workspace.", "quantifier": "all meshes, solution dimensions, element assemblers (including failing ones and elements with repeated nodes), all previous workspace contents", "why_tests_cant": "Quantifies over arbitrary user-supplied element assemblers and arbitrary reuse history.", "anchors": [{"file": "src/assembly/global.rs", "symbols": ["VectorAssembler::assemble_vector_into", "VectorAssembler::assemble_vector", "add_local_to_global_"]}]}
{"id": "C10", "title": "Parallel vector assembly is deterministic for every schedule", "statement": "For colours whose subsets are pairwise disjoint, every interleaving of the individual += writes of concurrently running element tasks produces the same output vector, bit for bit, namely the one obtained by running colours one after another and, inside a colour, elements in any order. No associativity or commutativity of the scalar addition is used.", "quantifier": "all colourings, all element vectors, all interleavings of threads at the granularity of single writes, any binary addition", "why_tests_cant": "Schedules are not enumerable by testing and floating-point addition is not associative, so equality up to tolerance in tests proves neither determinism nor race freedom.", "anchors": [{"file": "src/assembly/global.rs", "symbols": ["VectorParAssembler::assemble_vector_into"]}, {"file": "fenris-paradis/src/adapter.rs", "symbols": ["BlockMut::index_mut"]}]}
{"id": "C11", "title": "Parallel vector assembly agrees with serial assembly", "statement": "For the colouring produced from the element connectivity, parallel assembly of a vector returns, for every schedule, the same vector as serial assembly whenever scalar addition is associative and commutative; if no element fails both succeed.", "quantifier": "all connectivities, element vectors, schedules", "why_tests_cant": "Ranges over all meshes and schedules; combines the colouring, the block adapter and the scatter loop.", "anchors": [{"file": "src/assembly/global.rs", "symbols": ["VectorParAssembler", "VectorAssembler", "color_nodes"]}]}
{"id": "C12", "title": "The assembled sparsity pattern is exactly the element coupling graph", "statement": "assemble_pattern returns a valid CSR pattern (offsets start at 0 and are monotone, column indices strictly increase in each row and are below the column count) in which entry (r,c) is present if and only if some element contains both the node of r and the node of c; every block of solution_dim rows has the same columns.", "quantifier": "all connectivities with in-range nodes, all solution dimensions, any hash-set iteration order", "why_tests_cant": "The pattern is built by unsafe unchecked construction in release builds; validity must hold for every mesh.", "anchors": [{"file": "src/assembly/global.rs", "symbols": ["CsrAssembler::assemble_pattern"]}]}
{"id": "C13", "title": "Parallel pattern assembly equals serial pattern assembly", "statement": "CsrParAssembler::assemble_pattern returns the same pattern as the serial version for every order in which batches insert into the per-node sets, and its unchecked disjoint slices cover the column array exactly once without overlap.", "quantifier": "all connectivities, all insertion schedules, all batch sizes", "why_tests_cant": "Depends on thread schedule; slices are unsafe and unchecked.", "anchors": [{"file": "src/assembly/global.rs", "symbols": ["CsrParAssembler::assemble_pattern"]}, {"file": "fenris-paradis/src/slice.rs", "symbols": ["subslice_mut"]}]}
{"id": "C14", "title": "Serial CSR assembly sums element matrices", "statement": "If the pattern contains all couplings, node indices within each element are distinct, CsrAssembler::assemble_into_csr does not panic and adds to each stored entry (r,c) exactly the sum over elements of the local entries at the (local node, component) pairs that map to r and c; all other stored values and the pattern are unchanged. assemble returns the matrix whose dense view is the sum of the scattered element matrices. If an element fails its error is returned.", "quantifier": "all meshes, solution dimensions, element matrices, all previous workspace contents", "why_tests_cant": "The insertion walks the row with a forward-only cursor over a permutation sorted by an unstable sort; correctness for every node ordering is not testable.", "anchors": [{"file": "src/assembly/global.rs", "symbols": ["CsrAssembler::assemble_into_csr", "CsrAssembler::assemble", "add_element_row_to_csr_row"]}]}
{"id": "C15", "title": "CSR assembly accepts every connectivity", "statement": "Assembling a matrix never panics when all node indices are in range and the pattern was produced by assemble_pattern. This is false: an element that lists the same node twice makes the row insertion panic although vector and pattern assembly accept it.", "quantifier": "all connectivities", "why_tests_cant": "The precondition is undocumented; a test-suite with well-formed meshes never reaches it.", "anchors": [{"file": "src/assembly/global.rs", "symbols": ["add_element_row_to_csr_row", "CsrAssembler::assemble"]}]}
{"id": "C16", "title": "Parallel CSR assembly is deterministic and agrees with serial assembly", "statement": "For colours with pairwise disjoint subsets every interleaving of the individual value updates of concurrent element tasks gives the same matrix bit for bit (any addition), equal to processing colours sequentially, and equal to serial assembly when addition is associative and commutative.", "quantifier": "all colourings, element matrices, interleavings", "why_tests_cant": "Schedules are not enumerable; the row access is unsafe.", "anchors": [{"file": "src/assembly/global.rs", "symbols": ["CsrParAssembler::assemble_into_csr"]}, {"file": "fenris-sparse/src/sparse.rs", "symbols": ["ParallelCsrRowCollection"]}]}
{"id": "C17", "title": "Assembly preserves symmetry and is linear in the element matrices", "statement": "If every element matrix is symmetric then the assembled matrix is symmetric; the assembled matrix of a sum of element assemblers on the same connectivity is the sum of the assembled matrices.", "quantifier": "all meshes and element matrices over any commutative monoid", "why_tests_cant": "Users rely on symmetry for Cholesky/CG on every mesh.", "anchors": [{"file": "src/assembly/global.rs", "symbols": ["CsrAssembler::assemble"]}]}
{"id": "C18", "title": "Homogeneous Dirichlet conditions on a CSR matrix", "statement": "For a square CSR matrix with a structurally symmetric pattern, apply_homogeneous_dirichlet_bc_csr leaves the pattern unchanged, zeroes every stored entry in a constrained row or column except the diagonal entries of constrained rows, sets these to a strictly positive scale, and leaves every other entry unchanged; a symmetric matrix stays symmetric. Repeated nodes are harmless. Without structural symmetry the column half fails (refutation).", "quantifier": "all matrices, all node lists, all solution dimensions", "why_tests_cant": "The column elimination visits only rows discovered through the pattern; whether that suffices is a claim about all patterns.", "anchors": [{"file": "src/assembly/global.rs", "symbols": ["apply_homogeneous_dirichlet_bc_csr"]}]}
{"id": "C19", "title": "Homogeneous Dirichlet conditions on dense matrices and vectors", "statement": "apply_homogeneous_dirichlet_bc_matrix zeroes constrained rows and columns and puts the mean absolute diagonal on constrained diagonals, leaving the rest unchanged; apply_homogeneous_dirichlet_bc_rhs zeroes exactly the constrained entries. Applied to a system, any solution of the constrained system vanishes on constrained degrees of freedom (if the scale is non-zero) and its free part solves the free sub-system.", "quantifier": "all matrices, vectors, node lists", "why_tests_cant": "A statement about all linear systems and their solutions.", "anchors": [{"file": "src/assembly/global.rs", "symbols": ["apply_homogeneous_dirichlet_bc_matrix", "apply_homogeneous_dirichlet_bc_rhs"]}]}
{"id": "C20", "title": "Scalar assembly is order independent", "statement": "assemble_scalar returns the left-to-right sum of element scalars or the error of the first failing element; par_assemble_scalar returns, for every reduction tree rayon may use, the same sum whenever addition is associative and zero is neutral, and fails exactly when some element fails.", "quantifier": "all element scalars, all reduction trees", "why_tests_cant": "The reduction tree is chosen by the scheduler.", "anchors": [{"file": "src/assembly/global.rs", "symbols": ["assemble_scalar", "par_assemble_scalar"]}]}
{"id": "C21", "title": "Gather and scatter are adjoint", "statement": "gather_global_to_local copies exactly the components of the listed nodes; add_local_to_global adds each local component to the matching global one; for all vectors u and local v the dot product of gather(u) with v equals the dot product of u with the scatter of v into zero, including for repeated node indices.", "quantifier": "all index lists (with repeats), vectors, solution dimensions", "why_tests_cant": "An algebraic duality over all inputs, on which the consistency of energy, residual and stiffness rests.", "anchors": [{"file": "src/assembly/global.rs", "symbols": ["gather_global_to_local_", "add_local_to_global_"]}]}
{"id": "C22", "title": "Permutation construction, inversion and application", "statement": "Permutation::from_vec returns Ok exactly for lists that are permutations of 0..n and Err for in-range lists with a repetition; inverse returns a permutation p' with p'(p(i)) = p(p'(i)) = i; apply_to_slice puts source[p(i)] at i, and applying p then its inverse restores the source; reverse yields the permutation read backwards. An out-of-range entry panics instead of returning Err (refutation of totality).", "quantifier": "all lists and slices", "why_tests_cant": "Algebraic laws over all permutations.", "anchors": [{"file": "src/mesh/reorder.rs", "symbols": ["Permutation::from_vec", "Permutation::inverse", "Permutation::apply_to_slice", "Permutation::reverse"]}]}
{"id": "C23", "title": "Cuthill-McKee always returns a permutation", "statement": "cuthill_mckee and reverse_cuthill_mckee terminate on every square sparsity pattern and return a permutation of all rows (also when the graph is disconnected, directed, has self-loops or isolated vertices), whatever order the unstable sort gives to equal-degree neighbours.", "quantifier": "all square patterns, all tie-breaking choices", "why_tests_cant": "Termination and completeness over all graphs and all outcomes of an unstable sort.", "anchors": [{"file": "src/mesh/reorder.rs", "symbols": ["cuthill_mckee", "reverse_cuthill_mckee"]}]}
{"id": "C24", "title": "Cuthill-McKee visits breadth-first by degree", "statement": "In the returned order each vertex either starts a new component search, in which case it has minimum degree among all not yet placed vertices (the first such), or is adjacent from an earlier vertex; vertices appear grouped by the earliest vertex that discovered them, with non-decreasing degree within a group.", "quantifier": "all square patterns, all tie-breaking choices", "why_tests_cant": "Structural property of the whole execution on every graph.", "anchors": [{"file": "src/mesh/reorder.rs", "symbols": ["cuthill_mckee"]}]}
{"id": "C25", "title": "Mesh reordering preserves the mesh", "statement": "Applying a MeshPermutation to a mesh with matching sizes yields a mesh with the same vertices up to the vertex permutation and whose i-th cell is the source cell given by the connectivity permutation with identical vertex coordinates in the same local order; in particular the multiset of cells (as coordinate tuples) is unchanged. reorder_mesh_par produces such a permutation and cells appear ordered by their smallest new vertex index.", "quantifier": "all meshes, all permutations", "why_tests_cant": "Composition of a permutation with an inverse permutation is easy to get backwards and symmetric tests do not notice.", "anchors": [{"file": "src/mesh/reorder.rs", "symbols": ["MeshPermutation::apply", "reorder_mesh_par"]}]}
{"id": "C26", "title": "Boundary faces are exactly the faces used once", "statement": "find_boundary_faces returns each (face, cell index, local face index) whose list of vertices, up to order, occurs exactly once among all faces of all cells, nothing else, each once, ordered by sorted vertex list; find_boundary_cells and find_boundary_vertices return exactly the cells owning, and vertices lying on, such faces, sorted and without repetition.", "quantifier": "all connectivities", "why_tests_cant": "Exactness (both directions) over all meshes including non-manifold ones.", "anchors": [{"file": "src/mesh.rs", "symbols": ["find_boundary_faces", "find_boundary_cells", "find_boundary_vertices"]}]}
{"id": "C27", "title": "keep_cells restricts the mesh faithfully", "statement": "keep_cells(cells) returns a mesh whose i-th cell has the same vertex coordinates in the same local order as source cell cells[i], whose vertices are exactly those referenced by kept cells, each once and in source order, and whose indices are all in range.", "quantifier": "all meshes and cell index lists (with repeats)", "why_tests_cant": "Index compaction must be right for every subset.", "anchors": [{"file": "src/mesh.rs", "symbols": ["keep_cells"]}]}
{"id": "C28", "title": "Uniform triangle refinement is conforming and area preserving", "statement": "refine_uniformly succeeds on every Tri3 mesh with in-range indices and returns exactly one vertex per vertex used by a cell (at the same position) and one per distinct undirected edge (at its midpoint); cell k is replaced by the four cells 4k..4k+3 made of its corners and edge midpoints, each with exactly one quarter of its signed area; midpoint indices of two edges agree exactly if the edges agree up to direction. Repeated refinement multiplies the cell count by 4^k and keeps the total signed area. Independent of hash order.", "quantifier": "all triangle meshes, all numbers of repetitions", "why_tests_cant": "Conformity and exact area conservation over all meshes.", "anchors": [{"file": "src/mesh/refinement.rs", "symbols": ["refine_mesh", "refine_uniformly", "refine_uniformly_repeat"]}, {"file": "src/mesh/refinement/detail.rs", "symbols": ["EdgeMidpointLabel"]}]}
{"id": "C29", "title": "Conversion to quadratic meshes is conforming", "statement": "Converting Tri3 to Tri6, Quad4 to Quad9, Tet4 to Tet10, Hex8 to Hex20/Hex27 keeps each cell's corner coordinates in order and adds edge/face/cell nodes located at the mean of the corners they represent; two cells that share an edge or a face refer to the same node for it, and distinct edges get distinct nodes. All indices are in range.", "quantifier": "all meshes of the source type", "why_tests_cant": "Node sharing must hold for every mesh topology and every local orientation of the shared edge.", "anchors": [{"file": "src/mesh_convert.rs", "symbols": ["RefineFrom", "FromTemp", "From<&TriangleMesh2d>", "From<&QuadMesh2d>"]}]}
{"id": "C30", "title": "Procedural meshes are valid", "statement": "create_rectangular_uniform_quad_mesh_2d and create_rectangular_uniform_hex_mesh produce meshes whose cells are exactly the grid cells (one each), with in-range indices, every cell a positively oriented axis-aligned square/cube of the stated size, whose total measure is the measure of the box. create_rectangular_uniform_tet_mesh never panics and splits the box into twelve positively oriented tetrahedra of equal volume per grid cell, whose volumes add up to the volume of the box.", "quantifier": "all positive resolutions and unit sizes", "why_tests_cant": "Index arithmetic over all resolutions.", "anchors": [{"file": "src/mesh/procedural.rs", "symbols": ["create_rectangular_uniform_quad_mesh_2d", "create_rectangular_uniform_hex_mesh", "create_rectangular_uniform_tet_mesh"]}]}
{"id": "C31", "title": "A box with an empty side has an empty mesh", "statement": "create_rectangular_uniform_hex_mesh returns a mesh without vertices if any of the unit counts is zero. False when only units_z is zero: vertices are produced without any cell.", "quantifier": "all unit counts", "why_tests_cant": "Corner case not in tests.", "anchors": [{"file": "src/mesh/procedural.rs", "symbols": ["create_rectangular_uniform_hex_mesh"]}]}
{"id": "C32", "title": "Aggregate element assembler dispatches to the right assembler", "statement": "If every aggregated assembler has at least one element then global element index k refers to element k - (sum of earlier counts) of the unique assembler owning it, for every query and every binary search that keeps the documented contract, and num_elements is the total. With the binary search of current standard libraries this also holds with empty assemblers; under the documented contract alone the dispatch may select an empty assembler and hand it an out-of-range index (refutation), and an index equal to num_elements is not rejected by the bounds assertion.", "quantifier": "all lists of assemblers and element indices", "why_tests_cant": "Binary search on an offset table with repeated offsets: unspecified choice among equals.", "anchors": [{"file": "src/assembly/local.rs", "symbols": ["AggregateElementAssembler"]}]}
{"id": "C33", "title": "Typed workspace keeps one independent slot per type", "statement": "For any history of get_or_insert_with and writes through the returned references, a request for type U returns the value last stored for U (or the default on first request) and never disturbs the value of another type; at most one slot per type exists.", "quantifier": "all histories over all types", "why_tests_cant": "Slots are swapped around on each access; the claim is about all histories.", "anchors": [{"file": "src/workspace.rs", "symbols": ["Workspace::get_or_insert_with"]}]}
{"id": "C34", "title": "Compact quadrature tables return the registered rule", "statement": "General, uniform and compact quadrature tables populate weights, points and data for element e with exactly the rule registered for e, the reported counts match, the general-to-compact route with a map agrees with the general table obtained by expanding the map, and construction panics exactly on inconsistent or out-of-range input.", "quantifier": "all rules, maps and element indices", "why_tests_cant": "Extensional equality of tables over all inputs.", "anchors": [{"file": "src/assembly/local/quadrature_table.rs", "symbols": ["GeneralQuadratureTable", "UniformQuadratureTable", "CompactQuadratureTable"]}]}
{"id": "C35", "title": "Fixed interpolator evaluates the registered combination", "statement": "For every compressed layout and every vector containing all components of the referenced nodes, interpolate gives at each interpolation point the sum of weights times nodal values, and interpolate_gradients the matrix of sums of gradients times nodal values; a vector that is too short makes interpolation panic. An interpolator built from a space and points evaluates the finite element function and its physical gradient in the closest element of each point. The documented behaviour for a space without elements (returning None) does not hold: construction panics as soon as there are two points (refutation).", "quantifier": "all spaces, points, nodal vectors", "why_tests_cant": "Ranges over all compressed layouts and vectors.", "anchors": [{"file": "src/space/fixed_interpolator.rs", "symbols": ["FixedInterpolator"]}]}
{"id": "C36", "title": "CG reports success only with a converged residual", "statement": "Whenever conjugate gradient solving returns Ok, the returned x satisfies the stopping criterion for the true residual b - A x (in exact arithmetic; for a zero right-hand side, x solves the system), the reported iteration count is at most the limit and equals the number of updates applied; the limit error means the limit was reached with an unconverged residual, operator and preconditioner errors mean that these failed, and the indefiniteness errors exhibit a vector with non-positive energy; the solver terminates when an iteration limit is set. That the error for an indefinite operator implies an operator that is not positive definite is false: a singular preconditioner causes it too.", "quantifier": "all operators, preconditioners, right-hand sides, initial guesses, limits", "why_tests_cant": "The residual is updated recursively; that it equals b - Ax at every iteration is an invariant over all executions.", "anchors": [{"file": "fenris-sparse/src/cg.rs", "symbols": ["ConjugateGradient::solve_with_guess", "RelativeResidualCriterion"]}]}
{"id": "C37", "title": "CG search directions are conjugate", "statement": "For symmetric A and symmetric preconditioner P, as long as the solver has not stopped, residuals of different iterations are P-orthogonal and search directions are A-orthogonal; hence on an n-dimensional system with positive definite A and P that never fail, a non-negative tolerance and no iteration limit below n, the solver succeeds after at most n iterations.", "quantifier": "all symmetric operators and preconditioners, all iterations", "why_tests_cant": "Invariant over the full history of iterates.", "anchors": [{"file": "fenris-sparse/src/cg.rs", "symbols": ["ConjugateGradient::solve_with_guess"]}]}
{"id": "C38", "title": "Newton returns Ok only at a point meeting the tolerance", "statement": "newton_line_search returns Ok(k) only if the residual norm at the returned x is at most the tolerance (in exact arithmetic) and exactly k steps were taken; it returns the iteration-limit error only after exactly that many steps with the residual still above tolerance; the other errors mean that the Jacobian solve or the line search failed; with an iteration limit it returns; with no line search each step is x := x - J(x)^-1 F(x), and on affine problems with exact solves at most one step is taken.", "quantifier": "all problems, line searches, limits", "why_tests_cant": "Invariant over all executions with arbitrary user callbacks.", "anchors": [{"file": "fenris-optimize/src/newton.rs", "symbols": ["newton_line_search", "newton"]}]}
{"id": "C39", "title": "Backtracking line search accepts only sufficient decrease and stops", "statement": "On Ok the line search leaves x = x0 + alpha p and f = F(x) with alpha the first of the 13 trial lengths satisfying the sufficient-decrease test; it evaluates the function at most 13 times; it fails exactly when no trial length gives sufficient decrease, and then x equals x0 plus the last trial step (it is not restored). With it every step of Newton's method decreases the residual sufficiently.", "quantifier": "all functions, points, directions", "why_tests_cant": "x is updated incrementally with differences of step lengths; the invariant must hold along all trial sequences.", "anchors": [{"file": "fenris-optimize/src/newton.rs", "symbols": ["BacktrackingLineSearch"]}]}
{"id": "C40", "title": "Finite-difference derivatives restore the point and are exact for quadratics", "statement": "approximate_gradient_fd and both Jacobian approximations return the exact derivative for functions that are polynomials of degree at most two in each coordinate, for every non-zero step, have an error of at most M h^2/6 for functions with third derivative bounded by M, and leave the evaluation point unchanged.", "quantifier": "all points, steps, quadratic functions", "why_tests_cant": "Algebraic identity over all quadratics.", "anchors": [{"file": "fenris-optimize/src/calculus.rs", "symbols": ["approximate_gradient_fd_into", "approximate_jacobian_fd_into"]}]}
{"id": "C41", "title": "AABB queries are optimal", "statement": "from_points returns the smallest box containing all points (and enclose the smallest containing two boxes) without panicking; contains_point decides membership; closest_point_to returns a point of the box no farther than any other point of the box; furthest_point_to returns a corner at least as far as every point of the box; corners_iter enumerates each of the 2^D corners once; two boxes intersect exactly when they share a point; growing and scaling give the boxes of the displaced and scaled points.", "quantifier": "all dimensions, boxes and points", "why_tests_cant": "Optimality over an uncountable set of competitors.", "anchors": [{"file": "fenris-geometry/src/lib.rs", "symbols": ["AxisAlignedBoundingBox"]}]}
{"id": "C42", "title": "Closest point on a segment is closest", "statement": "LineSegment closest_point returns a point of the segment with minimal distance to the query, in any dimension, also for degenerate segments; clipping a segment by a half-plane or a polygon returns exactly the part inside; the intersection of two segments is found if they are not parallel (parallel overlapping segments are missed); closest_point_to_plane and intersect_plane are right.", "quantifier": "all segments, points, half-planes", "why_tests_cant": "Optimality over all points of the segment.", "anchors": [{"file": "fenris-geometry/src/primitives/line.rs", "symbols": ["LineSegment::closest_point", "intersect_half_plane_parametric"]}]}
{"id": "C43", "title": "Segment-disk intersection is the intersection", "statement": "intersect_disk on a segment returns Some exactly when the segment meets the disk and then the returned sub-segment lies in the disk. False: when the supporting line meets the disk outside the segment, a degenerate segment outside the disk is returned.", "quantifier": "all segments and disks", "why_tests_cant": "The failing configuration needs line-but-not-segment intersection.", "anchors": [{"file": "fenris-geometry/src/primitives/line.rs", "symbols": ["LineSegment2d::intersect_disk"]}]}
{"id": "C44", "title": "Half-plane clipping of polygons is exact", "statement": "For every closed polygon with any number of vertices, the signed areas of the polygon clipped by a half-plane and by the complementary half-plane add up to the signed area of the polygon; all vertices of the result satisfy the half-plane inequality and lie on edges of the polygon. A convex polygon stays convex and the result is exactly the intersection; intersect_polygon is exactly the intersection with the points left of all sides of the other polygon.", "quantifier": "all vertex lists (any length, convex or not), all half-planes", "why_tests_cant": "Quantifies over all polygons; floating-point tests only sample.", "anchors": [{"file": "fenris-geometry/src/polytope.rs", "symbols": ["ConvexPolygon::intersect_halfplane"]}]}
{"id": "C45", "title": "Polygon area formulas agree", "statement": "The shoelace signed area is invariant under rotation of the vertex list and translation, changes sign under reversal, and equals the sum of the signed areas of the fan triangulation from any point.", "quantifier": "all vertex lists and fan points", "why_tests_cant": "Algebraic law for every number of vertices.", "anchors": [{"file": "fenris-geometry/src/polygon.rs", "symbols": ["GeneralPolygon::signed_area", "triangulate_at_point", "triangulate"]}]}
{"id": "C46", "title": "Quadrilateral area is correct for every simple quadrilateral", "statement": "Quad2d::area returns the absolute shoelace area of every simple quadrilateral. Proved for convex quadrilaterals; false for quadrilaterals concave at corner 1 or 3, because the concave corner is never detected.", "quantifier": "all simple quadrilaterals", "why_tests_cant": "Failing inputs need a reflex corner at a specific position.", "anchors": [{"file": "fenris-geometry/src/primitives/quad.rs", "symbols": ["Quad2d::area", "Quad2d::concave_corner", "split_into_triangle_connectivities"]}]}
{"id": "C47", "title": "Polygon-segment intersection test is complete", "statement": "intersects_segment returns true whenever the segment shares a point with the polygon. False: a segment that crosses the polygon with both endpoints outside is reported as not intersecting.", "quantifier": "all polygons and segments", "why_tests_cant": "A computed flag is never used; tests do not cover crossing segments.", "anchors": [{"file": "fenris-geometry/src/polygon.rs", "symbols": ["intersects_segment"]}]}
{"id": "C48", "title": "Clipping by an empty polygon gives the empty polygon", "statement": "Intersecting a polygon with a polygon without vertices yields an empty polygon, and an empty polygon contains no point. Both are false of the code: the empty polygon contains every point and clipping by it is the identity.", "quantifier": "all polygons", "why_tests_cant": "Degenerate operand.", "anchors": [{"file": "fenris-geometry/src/polytope.rs", "symbols": ["ConvexPolygon::contains_point", "ConvexPolygon::intersect_polygon"]}]}
{"id": "C49", "title": "Cyclic equality and grid index enumeration", "statement": "slices_are_equal_shift_invariant returns true exactly when one slice is a rotation of the other (up to the comparator), and is an equivalence relation when the comparator is equality; the n-th power index iterator enumerates every D-tuple over 0..n exactly once.", "quantifier": "all slices; all n and D", "why_tests_cant": "Exactness over all inputs.", "anchors": [{"file": "fenris-geometry/src/util.rs", "symbols": ["slices_are_equal_shift_invariant", "index_set_nth_power_iter"]}]}
{"id": "C50", "title": "Polymesh face deduplication keeps the geometry of each cell", "statement": "For a polymesh with indices in bounds dedup_faces does not panic, keeps vertices, leaves every face reference of every cell pointing to a face with the same vertices (as multiset), no two remaining faces have the same vertices, and the remaining faces are exactly the first of their kind in the old order; face-cell connectivity lists for each face the cells using it in increasing order, as often as they refer to it; boundary faces are those referred to at most once, i.e. those that no two cells share if no cell repeats a face.", "quantifier": "all polymeshes with indices in bounds", "why_tests_cant": "Index relabelling over all meshes.", "anchors": [{"file": "fenris-geometry/src/polymesh.rs", "symbols": ["dedup_faces", "compute_face_cell_connectivity", "find_boundary_faces"]}]}
{"id": "C51", "title": "Basis functions form a nodal partition of unity", "statement": "For every element type (Segment2, Tri3, Tri6, Quad4, Quad9, Tet4, Tet10, Tet20, Hex8, Hex20, Hex27) the basis functions sum to one at every reference point and basis function i is one at reference node i and zero at the other reference nodes.", "quantifier": "all reference points, all element types", "why_tests_cant": "An identity over a continuum of points.", "anchors": [{"file": "src/element.rs", "symbols": ["phi_linear_1d", "phi_quadratic_1d"]}, {"file": "src/element/triangle.rs", "symbols": ["evaluate_basis"]}, {"file": "src/element/quadrilateral.rs", "symbols": ["evaluate_basis"]}, {"file": "src/element/tetrahedron.rs", "symbols": ["evaluate_basis"]}, {"file": "src/element/hexahedron.rs", "symbols": ["evaluate_basis"]}]}
{"id": "C52", "title": "Basis gradients are the derivatives of the basis functions", "statement": "For every element type each component of gradients(xi) is the exact partial derivative of the corresponding basis function at xi, at every reference point; consequently gradients sum to zero.", "quantifier": "all reference points, all element types, all components", "why_tests_cant": "Finite-difference tests sample points with a tolerance; hand-written gradients of up to 27 functions are easy to get subtly wrong.", "anchors": [{"file": "src/element/triangle.rs", "symbols": ["gradients"]}, {"file": "src/element/quadrilateral.rs", "symbols": ["gradients"]}, {"file": "src/element/tetrahedron.rs", "symbols": ["gradients"]}, {"file": "src/element/hexahedron.rs", "symbols": ["gradients"]}]}
{"id": "C53", "title": "Elements reproduce polynomials of their order", "statement": "Interpolating a polynomial of the element's order from its values at the reference nodes reproduces the polynomial at every reference point (affine functions for first-order, quadratics for second-order, cubics for third-order elements; tensor-product spaces for Quad4, Quad9, Hex8, Hex27); the geometry map sends reference vertices to element vertices and its Jacobian is the exact derivative of the map.", "quantifier": "all polynomials of the given order and all points", "why_tests_cant": "Completeness is an identity over all polynomials.", "anchors": [{"file": "src/element.rs", "symbols": ["ReferenceFiniteElement", "FiniteElement::map_reference_coords", "FiniteElement::reference_jacobian"]}]}
{"id": "C54", "title": "Tensor-product and subdivided quadrature keep exactness", "statement": "The tensor-product rule built from a 1D rule integrates products of functions to products of 1D integrals, its weights sum to the power of the 1D sum, and it is exact for polynomials of degree k in each variable if the 1D rule is exact for degree k (so degree 2n-1 for n Gauss points); the subdivided univariate rule with n >= 1 pieces integrates polynomials of degree k exactly if the base rule does, has the same total weight and stays in [-1,1]; the subdivided triangle rule panics for zero subdivisions, otherwise it has total weight equal to the base rule, all points inside the reference triangle, and integrates polynomials of total degree k exactly if the base rule does.", "quantifier": "all 1D rules, all functions, all piece counts", "why_tests_cant": "Exactness over all polynomials and all subdivision counts.", "anchors": [{"file": "fenris-quadrature/src/tensor.rs", "symbols": ["quadrilateral_gauss", "hexahedron_gauss"]}, {"file": "src/quadrature/subdivide.rs", "symbols": ["subdivide_univariate", "subdivide_triangle"]}]}
{"id": "C55", "title": "Stress is the derivative of the energy density", "statement": "For linear elastic and St. Venant-Kirchhoff materials in every dimension, and for Neo-Hookean materials in 2D and 3D, the stress tensor is the derivative of the energy density with respect to the deformation gradient in every direction, at every admissible deformation gradient; inadmissible ones (determinant not positive) have neither a Neo-Hookean energy nor a stress. The elliptic operator of a material is the derivative of its energy with respect to the displacement gradient. False for Neo-Hookean materials in 1D.", "quantifier": "all deformation gradients (positive determinant for Neo-Hookean), directions and Lame parameters", "why_tests_cant": "Continuum of inputs; finite-difference tests only have a tolerance.", "anchors": [{"file": "fenris-solid/src/materials.rs", "symbols": ["LinearElasticMaterial", "StVKMaterial", "NeoHookeanMaterial"]}, {"file": "fenris-solid/src/lib.rs", "symbols": ["MaterialEllipticOperator"]}]}
{"id": "C56", "title": "Stress contraction is the derivative of the stress", "statement": "For the same materials (Neo-Hookean also in 1D) compute_stress_contraction(F,a,b) is the contraction a_k dP_ik/dF_jm b_m of the derivative of the stress, and is symmetric under exchanging a and b. accumulate_stress_contractions_into succeeds exactly if the dimensions match; it adds alpha times the contraction of a_I and b_J to every block with I <= J and leaves the blocks below the diagonal alone; the batch variants compute the same contractions as the single ones.", "quantifier": "all deformation gradients, vectors, parameters, batch sizes", "why_tests_cant": "Continuum of inputs; consistency of two separately written code paths for all batches.", "anchors": [{"file": "fenris-solid/src/materials.rs", "symbols": ["compute_stress_contraction", "accumulate_stress_contractions_into"]}, {"file": "fenris-solid/src/lib.rs", "symbols": ["compute_batch_contraction"]}]}
{"id": "C57", "title": "log_det_F computes the logarithm of the determinant", "statement": "log_det_F(du_dX) equals ln det(I + du_dX) when that determinant is positive and None otherwise. Proved in 2D and 3D; false in 1D where the determinant of du_dX itself is used.", "quantifier": "all displacement gradients in dimensions 1, 2, 3", "why_tests_cant": "Continuum of inputs; the 1D branch is untested.", "anchors": [{"file": "fenris-solid/src/logdet.rs", "symbols": ["log_det_F"]}]}
{"id": "C58", "title": "Surface extraction keeps exactly the boundary", "statement": "extract_surface_mesh returns the mesh whose cells are the boundary faces, in the order of find_boundary_faces and with the orientation given by the face tables, whose vertices are exactly the boundary vertices in increasing order, each once, and whose cells refer to the same coordinates as the faces they come from.", "quantifier": "all meshes of all connectivity types", "why_tests_cant": "Composition of boundary detection and relabelling over all meshes.", "anchors": [{"file": "src/mesh.rs", "symbols": ["extract_surface_mesh"]}]}
{"id": "C59", "title": "Face tables are closed, outward and conforming", "statement": "For every cell the face tables give existing nodes; for Tet4 and Hex8 each edge occurs in exactly two faces, once in each direction; for every tetrahedron with positive volume and every positively oriented parallelepiped all face normals point outwards; for Tet10, Hex20 and Hex27 the faces' edge (and face) nodes are the midpoints expected by the Tri6/Quad8/Quad9 node numbering whenever the cell's nodes are.", "quantifier": "all cells and all coordinates", "why_tests_cant": "Orientation for all coordinates; the tables are hand written per type.", "anchors": [{"file": "src/connectivity.rs", "symbols": ["get_face_connectivity"]}]}
{"id": "C60", "title": "Higher-order elements made from linear ones keep the geometry", "statement": "Converting a Tri3 element to Tri6, Quad4 to Quad9, Tet4 to Tet10 or Tet4 to Tet20 yields an element whose node j is the image of reference node j under the geometry map of the linear element, and whose geometry map is the same function.", "quantifier": "all vertex coordinates, all nodes, all reference points", "why_tests_cant": "Tests check a few elements; a node in the wrong slot only shows for particular coordinates.", "anchors": ["src/element/triangle.rs From<&Tri3d2Element>", "src/element/quadrilateral.rs From<&Quad4d2Element>", "src/element/tetrahedron.rs From<&Tet4Element>"]}
{"id": "C62", "title": "Orthonormal frame of a unit vector", "statement": "compute_orthonormal_vectors_3d returns, for every unit vector n, two unit vectors u, v orthogonal to each other and to n with u x v = n; the division never is by zero.", "quantifier": "for all unit vectors in R^3", "why_tests_cant": "continuum of directions, including those near the poles", "anchors": [{"file": "fenris-geometry/src/util.rs", "symbols": ["compute_orthonormal_vectors_3d"]}]}
{"id": "C63", "title": "Signed distance of a triangle in the plane", "statement": "query_signed_distance of Triangle2d returns a boundary point, the absolute value of the distance is the distance to it and no boundary point is closer; it is at most 0 when the point is left of all three sides and at least 0 otherwise; for counterclockwise triangles distance() is the distance to the filled triangle.", "quantifier": "all triangles and points", "why_tests_cant": "Infinitely many triangles and points; wrong signs only show in regions near corners.", "anchors": [{"file": "fenris-geometry/src/primitives/triangle.rs", "symbols": ["query_signed_distance", "distance"]}]}
{"id": "C64", "title": "Clipping polygons in space keeps the area vector", "statement": "intersect_half_space of a polygon in any dimension returns points of its sides inside of the half space and keeps the vertices inside. In space, the area vectors of the two parts cut off by opposite half spaces add up to the area vector of the polygon in every direction along the cutting plane, and completely when the polygon is planar and not parallel to the cutting plane. Each component of area_vector is the signed area of the projection on a coordinate plane.", "quantifier": "all polygons, convex or not, and all half spaces", "why_tests_cant": "Infinitely many polygons and planes; vertices on the plane and several crossings are special cases.", "anchors": [{"file": "fenris-geometry/src/polygon.rs", "symbols": ["intersect_half_space", "area_vector"]}]}
{"id": "C65", "title": "Closest edge of a polygon and the signed distance", "statement": "closest_edge of every nonempty polygon returns a point of an edge with its parameter, no boundary point is closer and the absolute value of the signed distance is the distance to it. For strictly convex counterclockwise polygons the signed distance is at most 0 for points inside and positive for points outside, also where the closest point is a corner, and distance() is the distance to the filled polygon.", "quantifier": "all nonempty polygons and points; strictly convex counterclockwise ones for the sign", "why_tests_cant": "Infinitely many polygons and points; wrong signs only show in regions near corners.", "anchors": [{"file": "fenris-geometry/src/polygon.rs", "symbols": ["closest_edge", "pseudonormal_on_edge", "distance"]}]}
{"id": "C66", "title": "Concatenating polymeshes glues them unchanged", "statement": "concatenate of meshes with indices in bounds does not panic; the vertices are those of all meshes in order, the number of faces is the sum, and the list of polygons of every cell is that of the original cell, cells in order.", "quantifier": "all lists of polymeshes with indices in bounds, any point type", "why_tests_cant": "Offset arithmetic over all meshes; no test of the code covers more than small cases.", "anchors": [{"file": "fenris-geometry/src/polymesh.rs", "symbols": ["concatenate", "from_poly_data"]}]}
{"id": "C67", "title": "keep_cells of a polymesh is the exact restriction", "statement": "For cell indices in bounds keep_cells does not panic; the kept vertices and faces are exactly those used by the kept cells, each once, in old order; translated back the faces and cells are the old ones in the requested order, and the polygons of the kept cells are unchanged.", "quantifier": "all polymeshes with indices in bounds, all lists of cell indices (with repetitions)", "why_tests_cant": "Relabelling through two levels of indices for all meshes.", "anchors": [{"file": "fenris-geometry/src/polymesh.rs", "symbols": ["keep_cells"]}]}
{"id": "C68", "title": "Splitting edges inserts one shared midpoint per edge", "statement": "split_edges does not panic, keeps the cells and old vertices, puts after each vertex of each face the midpoint of that vertex and the next one; two edges (of any faces, in any direction) share the new vertex exactly if they join the same two vertices and there are no other new vertices. split_edges_n_times(n) multiplies face sizes by 2^n with old vertices at every 2^n-th place.", "quantifier": "all polymeshes with indices in bounds, any midpoint function, all n", "why_tests_cant": "Sharing of the midpoints between all faces of all meshes.", "anchors": [{"file": "fenris-geometry/src/polymesh.rs", "symbols": ["split_edges", "split_edges_n_times"]}]}
{"id": "C70", "title": "Triangulated polymeshes always convert to tetrahedral meshes", "statement": "triangulate of a polymesh with indices in bounds returns an error exactly if a face has fewer than three vertices and never panics; otherwise it keeps the vertices, yields triangles without duplicates, and its cells are the tetrahedra joining the smallest vertex of each cell to the fan triangles of the faces not containing it. Converting such a mesh to a Tet4 mesh never fails and gives these tetrahedra with the apex not below the base. The conversion in general is not total: a four-faced cell with a non-triangular first face panics instead of returning an error.", "quantifier": "all polymeshes with indices in bounds", "why_tests_cant": "Index bookkeeping across faces, fans and cells for all meshes; the panic needs a mesh no test builds.", "anchors": [{"file": "fenris-geometry/src/polymesh.rs", "symbols": ["triangulate"]}, {"file": "src/mesh_convert.rs", "symbols": ["try_from"]}]}
{"id": "C71", "title": "Conversion of meshes to polymeshes and of hexahedra to tetrahedra", "statement": "For every connectivity type with valid face tables the conversion of a mesh with indices in bounds to a polymesh does not panic, refers face by face to a face with the same vertices, has no duplicate faces, keeps the orientation of the first occurrence, and has the same boundary faces as the mesh. Hex8 meshes always convert to Tet4 meshes; with distinct vertices each hexahedron becomes six tetrahedra of its vertices with its smallest vertex as apex.", "quantifier": "all meshes with indices in bounds, all connectivity types", "why_tests_cant": "Relabelling over all meshes; case distinction over which corner has the smallest index.", "anchors": [{"file": "src/mesh_convert.rs", "symbols": ["PolyMesh::from", "Tet4Mesh::from"]}]}
{"id": "C69", "title": "Intersection of polymeshes with half spaces", "statement": "Intersecting a polymesh with half spaces never panics for indices in bounds. The vertices are the vertices inside and one cut point per cut edge; the faces are the clipped faces and the caps; cells with closed surfaces keep closed surfaces; with real coordinates all vertices of the result lie in all half spaces and in every convex set that contains the mesh. False: the volume of the result is the volume of the intersection (caps are oriented against the faces: the unit cube cut in half gives 1/6 and 5/6). False: create_simple_stupid_sphere builds a sphere (its result is flat for every radius and number of sweeps).", "quantifier": "all polymeshes with indices in bounds, all lists of half spaces", "why_tests_cant": "Topology of caps over all meshes and planes; the wrong orientation does not show in vertex or face counts.", "anchors": [{"file": "fenris-geometry/src/polymesh.rs", "symbols": ["intersect_half_space", "intersect_convex_polyhedron", "compute_volume"]}, {"file": "src/mesh/procedural.rs", "symbols": ["create_simple_stupid_sphere"]}]}
{"id": "C72", "title": "Areas and volumes of polygons and polyhedra in space", "statement": "The area vector of a polygon in space is half the sum of the cross products around its loop. The volume of a closed consistently oriented surface is the absolute value of the signed volumes of the tetrahedra over its fan triangles seen from any point, and the sum of their volumes if a point sees them all from one side. Tetrahedra have volume |det|/6, parallelepipeds |det|.", "quantifier": "all polygons with at least three vertices, all closed oriented surfaces, all tetrahedra and parallelepipeds", "why_tests_cant": "Independence of the base point and cancellation over arbitrary closed surfaces.", "anchors": [{"file": "fenris-geometry/src/lib.rs", "symbols": ["compute_area_vector", "compute_polyhedron_volume_from_faces"]}, {"file": "fenris-geometry/src/primitives/tetrahedron.rs", "symbols": ["get_face"]}, {"file": "fenris-geometry/src/primitives/hexahedron.rs", "symbols": ["get_face"]}]}
{"id": "C73", "title": "Closest points, containment and distance for convex faces and polyhedra", "statement": "The closest point of a convex planar face is a point of the face at the returned distance and no point of the face is closer. Containment in a convex polyhedron with inward faces is membership in all half spaces. The signed distance has the absolute value of the distance to the returned point of the returned face; it is at most zero inside, where no point outside the interior is closer, and positive outside, where no point of the body is closer. Tetrahedra with positive determinant and parallelepipeds satisfy this with membership given by barycentric coordinates and coordinates in [0,1], and their `distance` is the distance to the set.", "quantifier": "all convex faces, all convex polyhedra with at least four faces, all positively oriented tetrahedra and parallelepipeds, all points", "why_tests_cant": "Minimality ranges over all points of a face or body and over all shapes.", "anchors": [{"file": "fenris-geometry/src/lib.rs", "symbols": ["ConvexPolygon3d::closest_point", "ConvexPolyhedron::contains_point", "ConvexPolyhedron::compute_signed_distance"]}, {"file": "fenris-geometry/src/primitives/tetrahedron.rs", "symbols": ["distance", "get_face"]}, {"file": "fenris-geometry/src/primitives/hexahedron.rs", "symbols": ["distance", "get_face"]}]}
{"id": "C74", "title": "Winding number of triangle surfaces", "statement": "False: `compute_winding_number_for_triangles_3d` is one at interior points of a closed outward surface. The solid angle uses atan instead of atan2, so the winding number of n triangles is below n/4 in absolute value; it is never one for a tetrahedron, and -1/2 at the centre of a tetrahedron with outward faces. Turning a triangle over negates its angle; cycling its vertices keeps it.", "quantifier": "all triangle lists, all points", "why_tests_cant": "The bound covers every mesh; tests with fine meshes never meet triangles that cover much of the sphere.", "anchors": [{"file": "fenris-geometry/src/primitives/triangle.rs", "symbols": ["compute_solid_angle", "compute_winding_number_for_triangles_3d"]}]}
{"id": "C75", "title": "Physics of the materials", "statement": "The Lame parameters computed from Young's modulus and Poisson's ratio make a linear elastic bar under uniaxial strain carry exactly the stress E times strain along its axis and none across. Without deformation every material has zero energy and stress. St. Venant-Kirchhoff and Neo-Hookean energies do not change under a rotation after the deformation, and their stresses rotate along; this is false for linear elasticity. With Lame parameters that are not negative no energy is negative, and the St. Venant-Kirchhoff energy vanishes exactly for orthogonal deformation gradients.", "quantifier": "all moduli, deformation gradients, rotations", "why_tests_cant": "Continuum of inputs.", "anchors": [{"file": "fenris-solid/src/materials.rs", "symbols": ["LameParameters", "LinearElasticMaterial", "StVKMaterial", "NeoHookeanMaterial"]}]}
{"id": "C76", "title": "Element vectors and matrices are derivatives of element energies", "statement": "The element energy of an elliptic operator is the quadrature of the energy density of the gradient of the interpolated function. If the operator is the derivative of its energy density then the element vector is the gradient of the element energy with respect to the nodal values, and if the contraction is the derivative of the operator then the element matrix is the Jacobian of the element vector; symmetric assembly fills the upper triangle and copies it below. Assembly succeeds exactly if all Jacobians at quadrature points are invertible and the sizes match. This holds for the Laplace operator and for the linear elastic, St. Venant-Kirchhoff and (with positive determinant) Neo-Hookean operators.", "quantifier": "all finite elements given by basis gradients and Jacobians, all quadratures, nodal values, solution dimensions and operators with the stated derivatives", "why_tests_cant": "Derivatives at all points of a continuum, for arbitrary elements, quadratures and operators.", "anchors": [{"file": "src/assembly/local/elliptic.rs", "symbols": ["assemble_element_elliptic_energy", "assemble_element_elliptic_vector", "assemble_element_elliptic_matrix", "compute_volume_u_grad"]}, {"file": "src/assembly/operators.rs", "symbols": ["EllipticContraction::accumulate_contractions_into"]}, {"file": "src/assembly/operators/laplace.rs", "symbols": ["LaplaceOperator"]}, {"file": "fenris-solid/src/lib.rs", "symbols": ["MaterialEllipticOperator"]}, {"file": "src/util.rs", "symbols": ["clone_upper_to_lower"]}]}
{"id": "C77", "title": "Element mass matrices and source vectors", "statement": "The element mass matrix consists of multiples of the identity by the quadratures of density times products of basis functions; its products with nodal values are quadratures of products of interpolated functions, it is positive semidefinite for weights and densities that are not negative, and if the basis functions add up to one its entries per component add up to the mass. Source vectors are quadratures of source times basis function; they add up to the quadrature of the source. Gravity adds up to mass times acceleration.", "quantifier": "all finite elements, quadratures, densities, sources, solution dimensions", "why_tests_cant": "Arbitrary elements, quadratures and data; tests use few fixed elements.", "anchors": [{"file": "src/assembly/local/mass.rs", "symbols": ["assemble_element_mass_matrix"]}, {"file": "src/assembly/local/source.rs", "symbols": ["assemble_element_source_vector"]}, {"file": "fenris-solid/src/gravity_source.rs", "symbols": ["GravitySource"]}, {"file": "src/util.rs", "symbols": ["clone_upper_to_lower"]}]}
{"id": "C78", "title": "Global vectors and matrices are derivatives of global energies", "statement": "Whatever the thread-local workspaces and the buffers of the assemblers contain, the element assembler of an elliptic operator returns the element functions for the entries of the solution that belong to the nodes of the element. If energy, vector and matrix of every element belong together (C76), then the assembled vector is the derivative of the assembled energy in every direction, and every entry of the assembled sparse matrix, which is symmetric, is the derivative of an entry of the assembled vector. This holds for the Laplace operator and for linear elastic, St. Venant-Kirchhoff and, where no element is inverted, Neo-Hookean materials on all meshes of regular elements with different nodes. The three quadrature tables hand out the rules they were made of.", "quantifier": "all finite element spaces, connectivities without repeated nodes, quadrature tables, solutions, contents of workspaces, hash orders and sorting algorithms", "why_tests_cant": "Derivatives over a continuum of solutions and directions, arbitrary meshes and arbitrary leftovers in workspaces of threads.", "anchors": [{"file": "src/assembly/local/elliptic.rs", "symbols": ["ElementEllipticAssembler"]}, {"file": "src/assembly/buffers.rs", "symbols": ["BasisFunctionBuffer", "QuadratureBuffer"]}, {"file": "src/assembly/global.rs", "symbols": ["VectorAssembler", "CsrAssembler", "assemble_scalar", "gather_global_to_local"]}, {"file": "src/assembly/local/quadrature_table.rs", "symbols": ["QuadratureTable::populate_element_quadrature_and_data"]}]}
{"id": "C79", "title": "Global mass matrices, sources and stiffness matrices are integrals over the mesh", "statement": "Products of the assembled mass matrix with nodal values are the integrals over the mesh, by quadrature, of density times the products of the functions; it is symmetric, does not couple components, is positive semidefinite for weights and densities that are not negative, and if the basis functions add up to one its entries per component add up to the mass of the mesh. Products of the assembled source vector are integrals of the products of source and function; it adds up to the integral of the source, and for gravity to mass times acceleration. The assembled Laplace matrix gives integrals of products of gradients, is positive semidefinite, and its rows add up to zero if the gradients of the basis functions do.", "quantifier": "all finite element spaces, connectivities without repeated nodes, quadrature tables, densities, sources, nodal values, contents of workspaces", "why_tests_cant": "Arbitrary meshes, functions and data; tests compare few matrices.", "anchors": [{"file": "src/assembly/local/mass.rs", "symbols": ["ElementMassAssembler"]}, {"file": "src/assembly/local/source.rs", "symbols": ["ElementSourceAssembler"]}, {"file": "src/assembly/global.rs", "symbols": ["CsrAssembler", "VectorAssembler"]}, {"file": "fenris-solid/src/gravity_source.rs", "symbols": ["GravitySource"]}]}
{"id": "C80", "title": "Gauss rules integrate polynomials of degree 2n-1", "statement": "The Legendre recurrence computes the Legendre polynomials and the derivative formula their derivatives. gauss(0) panics. Whatever roots the search returns, gauss(n) yields n weights and n points that are symmetric about zero. With exact roots the rule has positive weights, distinct points in (-1,1), and integrates every polynomial of degree at most 2n-1 and none of degree 2n exactly; n such roots exist for every n. With approximate roots the error is as small as wanted if the roots are close enough. The middle root of an odd rule is found exactly at once.", "quantifier": "all numbers of points n >= 1, all polynomials of degree up to 2n-1, all root searches", "why_tests_cant": "The repository tests a few dozen rules on monomials; the claim is for every number of points and every polynomial, and the orthogonality argument behind it cannot be observed on examples.", "anchors": [{"file": "fenris-quadrature/src/univariate.rs", "symbols": ["gauss", "LegendreRecurrence"]}]}
{"id": "C81", "title": "Canonical quadratures integrate mass and stiffness matrices", "statement": "False: the documentation of the canonical quadratures says that they integrate products of basis functions, and products of their gradients, exactly on a region K. For mass matrices this is true of every triangle and tetrahedron, of every quadrilateral whose map keeps its orientation, and of hexahedra whose Jacobian determinant is at most linear in each coordinate, but on a frustum a diagonal entry is wrong for each of the three hexahedra. For stiffness matrices it is true of all nondegenerate triangles and tetrahedra and of quadrilaterals and hexahedra with an affine map, but on a trapezoid (or a prism over it) a diagonal entry is wrong for each of the five elements. In the good cases the mass matrix and the Laplace matrix that fenris assembles equal the exact integrals.", "quantifier": "all ten element types, all vertices, all pairs of basis functions", "why_tests_cant": "The claim is about integrals of all pairs of basis functions over all shapes; a test compares sums for a few shapes, and the shapes on which the claim fails are never among affine test meshes.", "anchors": [{"file": "src/quadrature/canonical.rs", "symbols": ["CanonicalMassQuadrature", "CanonicalStiffnessQuadrature"]}, {"file": "fenris-quadrature/src/tensor.rs", "symbols": ["quadrilateral_gauss", "hexahedron_gauss"]}]}
{"id": "C82", "title": "The tabulated rule of smallest sufficient strength is selected", "statement": "The build script turns a directory of rule files into a program exactly if the directory has at least one rule file (a file with extension txt and a name made of two numbers separated by a dash), every rule file is well formed and contains as many points as its name says, and no two have the same strength. The function of a domain then returns, for a requested strength, the rule of the file with the smallest sufficient strength, and an error exactly if every file is too weak. The result does not depend on the order in which the directory is listed.", "quantifier": "all directories, file names, file contents, requested strengths, listing orders", "why_tests_cant": "Directory listings come in an order that the operating system chooses, and tests only see the directory that is shipped.", "anchors": [{"file": "fenris-quadrature/build.rs", "symbols": ["load_polyquad_rules", "try_match_path_to_strength_and_size"]}, {"file": "fenris-quadrature/src/polyquad.rs", "symbols": ["triangle", "tetrahedron"]}, {"file": "src/quadrature/total_order.rs", "symbols": ["triangle"]}]}
{"id": "C83", "title": "Rule files are read as the numbers they show", "statement": "The parsers of rule files succeed exactly on texts whose lines that are not blank consist of the right number of numbers separated by white space, and return these numbers in order, the last of each line as weight and the others as point; otherwise they report the first offending token with its label, or the first offending line with its number of entries. A plain decimal is read as the nearest double, ties to even, and rejected exactly if it is too large.", "quantifier": "all texts, all decimals of any length", "why_tests_cant": "There are infinitely many texts and decimals; correct rounding fails, if at all, on rare inputs.", "anchors": [{"file": "polyquad-parse/src/lib.rs", "symbols": ["parse2d", "parse3d", "parse_helper"]}]}
{"id": "C84", "title": "Tabulated rules integrate polynomials of their degree", "statement": "For triangles, quadrilaterals, tetrahedra, hexahedra, prisms and pyramids and every requested strength up to 10, 11, 8, 7, 7, 7: the rule that is returned has as many points as weights, its weights are positive, its points lie in the reference domain, and for every polynomial of total degree at most the strength the sum over the points differs from the integral over the reference domain by at most 10^-15 times the sum of the absolute values of the coefficients, although the coordinates and weights are rounded to doubles.", "quantifier": "all six domains, all requested strengths up to a limit per domain, all polynomials up to that degree, all directories that extend the shipped files of low strength", "why_tests_cant": "Tests integrate a few monomials in floating point; they cannot bound the error for all polynomials, nor separate the error of the table from that of the summation.", "anchors": [{"file": "fenris-quadrature/src/polyquad.rs", "symbols": ["triangle", "quadrilateral", "tetrahedron", "hexahedron", "prism", "pyramid"]}, {"file": "fenris-quadrature/build.rs", "symbols": ["load_polyquad_rules"]}]}
{"id": "C85", "title": "Integrals over elements and meshes", "statement": "The volume form is the absolute determinant for volumes, the area of the parallelogram of the columns for surfaces, the length of the column for curves; it is invariant under rotations, scales with the determinant of a change of reference coordinates, and is 0 exactly for linearly dependent columns. The integral of f(x), f(x, u), f(x, grad u) or f(x, u, grad u) over an element or mesh is the sum over all elements and quadrature points of weight times volume form times the integrand at the mapped point, the interpolated value and the physical gradient of the finite element function, whatever the thread-local workspaces contain. Gradients are refused, with an error value, exactly if a Jacobian is singular at a quadrature point; nodal values of the wrong number are a panic.", "quantifier": "all elements of dimension up to 3 in space of dimension up to 3, meshes, quadrature tables, integrands, nodal values, workspace contents", "why_tests_cant": "The volume form is documented as untested; tests use a few elements and integrands and always start from similar workspaces.", "anchors": [{"file": "src/integrate.rs", "symbols": ["volume_form", "integrate_over_element", "integrate_over_volume_element", "ElementIntegralAssembler", "ElementIntegralVolumeAssembler"]}, {"file": "src/util.rs", "symbols": ["compute_interpolation", "compute_interpolation_gradient"]}, {"file": "src/assembly/buffers.rs", "symbols": ["QuadratureBuffer"]}]}
{"id": "C86", "title": "L2 and H1 seminorm errors", "statement": "The squared error of a finite element function with respect to a given function (or its gradient) is the integral by quadrature of the squared distance of values (or gradients). With weights that are not negative its root is a seminorm of nodal values and function together (homogeneous, triangle inequality), so errors of two finite element functions differ by at most the norm of their difference; with positive weights and regular Jacobians it vanishes exactly if values (gradients) agree at all quadrature points. With respect to a function of the finite element space it is the norm of the difference of the nodal values in the assembled mass matrix with density 1 (Laplace matrix, for scalar functions). The squared error of a mesh is the sum of the squared errors of its elements. A singular Jacobian makes the H1 estimate of a mesh an error and that of an element a panic.", "quantifier": "all meshes of dimension up to 3, quadrature tables, solution dimensions, functions, nodal values, workspace contents", "why_tests_cant": "Convergence tests compare rates on a few meshes; they do not show that the estimate is a norm or that it matches the assembled matrices.", "anchors": [{"file": "src/error.rs", "symbols": ["estimate_element_L2_error_squared", "estimate_L2_error", "estimate_H1_seminorm_error", "make_L2_error_squared_integrand", "make_H1_seminorm_error_squared_integrand"]}]}
{"id": "C87", "title": "Closest points of triangles and tetrahedra", "statement": "For every triangle in the plane or in space and every tetrahedron, degenerate ones included, and every point p, the reported reference coordinates belong to the reference element up to twice the tolerance in barycentric coordinates, they map to the reported point, and no point of the element is closer to p than that point (so without tolerance it is a closest point of the element). If InElement is reported, the coordinates map to p itself and p is not on the boundary; points of the interior of a nondegenerate element are always reported InElement (triangles in space never are). False: that InElement is reported only for points of the element; with a positive tolerance points slightly outside are reported too.", "quantifier": "all vertices, points and tolerances >= 0, degenerate elements included", "why_tests_cant": "Property tests sample points and elements and compare with a bounded number of candidates; degenerate elements and the tie between interior and boundary candidates are rarely hit.", "anchors": [{"file": "src/element/triangle.rs", "symbols": ["is_likely_in_tri_ref_interior", "closest_point"]}, {"file": "src/element/tetrahedron.rs", "symbols": ["is_likely_in_tet_ref_interior", "closest_point"]}, {"file": "src/element.rs", "symbols": ["ClosestPoint", "ClosestPointInElement"]}]}
{"id": "C88", "title": "Closest element of a mesh with a spatial index", "statement": "If the tree yields its entries ordered by the distance of their boxes, then the search returns nothing exactly for spaces without elements, and otherwise an element together with reference coordinates whose image is at least as near to the query point as every point of every element: the pruning by the farthest point of the first enlarged box and the early return for InElement lose nothing. For meshes of triangles or tetrahedra with valid connectivity nothing panics; without tolerance the answer is a nearest point of the mesh, and a point of the mesh is answered by itself.", "quantifier": "all spaces whose bounds contain their elements and whose closest points are correct (all well-formed triangle and tetrahedral meshes), all points, all orders of equally distant entries", "why_tests_cant": "Tests compare with brute force on a few meshes; pruning errors show only for particular configurations of boxes.", "anchors": [{"file": "src/space/spatially_indexed.rs", "symbols": ["from_bounding_boxes", "closest_cell_candidates", "from_space", "find_closest_element_and_reference_coords"]}, {"file": "src/space/space_impl.rs", "symbols": ["closest_point_in_element", "bounds_for_element", "map_element_reference_coords"]}, {"file": "src/space/mod.rs", "symbols": ["bounds_for_all_elements"]}]}
{"id": "C89", "title": "Interpolation at arbitrary points", "statement": "Interpolation of values and gradients at points answers exactly if the buffers have equal lengths, the search does not panic, the nodal values exist and (for gradients) the Jacobians found are regular. The answer for a point is the finite element function, or its physical gradient, at the element and reference coordinates the search finds, zero without elements; it depends neither on the other points nor on the contents of buffers and thread-local workspaces, and it agrees with the interpolator for fixed points (C35). For meshes of triangles and tetrahedra it is the linear interpolation at a nearest point of the mesh: affine functions are reproduced with their gradients, values stay between the smallest and the largest nodal value, and on conforming meshes of nondegenerate cells the function is well defined (the same in every cell that contains the point) and takes the nodal values at the vertices.", "quantifier": "all spaces, points, nodal values, solution dimensions, workspace contents; all well-formed meshes and orders of the tree iterator for the mesh statements", "why_tests_cant": "Tests interpolate a few functions at sampled points; that the choice of the cell does not matter and that stale buffers are harmless are statements about all inputs.", "anchors": [{"file": "src/space/interpolate.rs", "symbols": ["interpolate_at_points", "interpolate_gradient_at_points", "interpolate_at_point", "interpolate_gradient_at_point"]}, {"file": "src/assembly/buffers.rs", "symbols": ["InterpolationBuffer", "InterpolationElementBuffer", "BasisFunctionBuffer"]}, {"file": "src/space/space_impl.rs", "symbols": ["populate_element_basis", "populate_element_gradients", "element_reference_jacobian"]}, {"file": "src/space/spatially_indexed.rs", "symbols": ["interpolate_at_points_into", "interpolate_gradient_at_points_into"]}]}
{"id": "C90", "title": "Inverting geometry maps", "statement": "The diameter of an element with affine geometry, and of bilinear and trilinear elements, is the largest distance of two of its points. Whatever the Newton inversion of the geometry map returns as reference coordinates is mapped to within 1e-12 diameters of the given point. For simplices with independent vertices it always succeeds, and a singular Jacobian at the reference origin is reported unless the origin is already close enough. For strictly convex quadrilaterals and points of the element the iteration converges; twenty iterations, the limit in the code, suffice if no corner is flatter than a hundredth of the mean. The projection of a point onto an element returns a point where the gradient of the squared distance is small, reports only rank-deficient Jacobians, gives the closest point of the affine hull for simplices after one step, and terminates for points of strictly convex quadrilaterals. False: that the inversion succeeds for every point of every strictly convex quadrilateral (it can fail at a vertex), and that the projection terminates for every point (its loop has no limit and can cycle).", "quantifier": "all vertices, points, dimensions and limits; simplices in any geometry dimension for the projection; all strictly convex quadrilaterals", "why_tests_cant": "Tests invert random points of a few well-shaped elements; convergence for all of them needs the invariant line of the iterates, and failure needs nearly degenerate elements or distant points that random tests miss.", "anchors": [{"file": "src/element.rs", "symbols": ["map_physical_coordinates", "project_physical_coordinates", "diameter"]}, {"file": "src/element/triangle.rs", "symbols": ["diameter"]}, {"file": "src/element/tetrahedron.rs", "symbols": ["diameter"]}, {"file": "src/element/quadrilateral.rs", "symbols": ["diameter"]}, {"file": "src/element/hexahedron.rs", "symbols": ["diameter"]}, {"file": "src/element/segment.rs", "symbols": ["diameter"]}]}
{"id": "C91", "title": "Gauss-Lobatto rules", "statement": "There is a Gauss-Lobatto rule exactly for 2 to 32, 64, 128, 256 and 512 points, and asking for any number of points does not panic. A rule of size n has n strictly increasing points, the first -1 and the last 1 (after the correction of the tabulated end points), and positive weights; it integrates polynomials of degree up to 2n - 3 (for the three largest rules: up to 31) over [-1, 1] with an error of at most 1e-14 times the sum of the absolute coefficients, for the doubles the literals are read as. No rule with n points that include both end points is exact for all polynomials of degree 2n - 2.", "quantifier": "all sizes, all polynomials of these degrees; all rules for the bound on the degree", "why_tests_cant": "The tests check monomials with a tolerance for a few sizes; the statement is about all polynomials and includes the optimality of the degree.", "anchors": [{"file": "fenris-quadrature/src/univariate.rs", "symbols": ["try_gauss_lobatto"]}, {"file": "fenris-quadrature/src/codegen/gauss_lobatto_rules.rs", "symbols": ["try_gauss_lobatto"]}]}
{"id": "C92", "title": "Reading Gmsh files", "statement": "Loading a mesh from a parsed Gmsh file succeeds exactly if the file has nodes and elements, some block has the requested element type and dimension, no block has sparse tags, all coordinates can be converted, the number of nodes is the declared one and every element of the selected blocks has the number of nodes of its type; the vertices are then all nodes in file order, cut to the dimension of the mesh, and the cells are the elements of the selected blocks in file order with all tags lowered by one. Panics happen only for a negative block dimension, an element with too many nodes or the node tag 0. The node numbering of Gmsh is the one of the library's elements, for all element types. If the tags start at 1, each cell refers to the nodes its element names; false for other first tags, and the cells are not checked to be in range.", "quantifier": "all files, all connectivity types with an instance, all dimensions", "why_tests_cant": "The tests load a few asset files; the statement covers all block structures and the error cases, and relates node numbers to geometry.", "anchors": [{"file": "src/io/msh.rs", "symbols": ["load_msh_from_bytes", "vertices_from_node_block", "connectivity_from_element_block", "element_block_matches_connectivity", "point_from_msh_node", "try_connectivity_from_msh_element", "msh_element_type", "reference_dim"]}]}
{"id": "C93", "title": "Export of meshes to VTK", "statement": "Building a VTK data set from a mesh in at most three dimensions never panics and fails exactly if an exported node number does not fit 32 bits. The points are the vertices padded with zeros to three coordinates; the cell list is the list of cells in the legacy format, which can be read in one way only; each cell has the type for its connectivity, its corners in the same order, no node twice, and in a straight-sided cell every node is at the place VTK expects. Data arrays have one row per point or cell after any sequence of builder calls, vectors padded with zeros; these calls panic exactly for a wrong number of entries or too many components. The number of nodes is that of the VTK cell type; false for nine-node quadrilaterals, which are exported as the eight-node type with nine nodes.", "quantifier": "all meshes, all connectivity types, all sequences of builder calls", "why_tests_cant": "There are no tests of the numbering of exported nodes.", "anchors": [{"file": "src/io/vtk.rs", "symbols": ["write_vtk_connectivity", "cell_type", "num_nodes", "from_mesh", "with_title", "with_point_vector_attributes", "with_point_scalar_attributes", "with_cell_scalar_attributes", "try_build", "try_export"]}]}
{"id": "C94", "title": "Signed distance functions", "statement": "For circles, axis-aligned boxes and all unions of these, with nonnegative radii and extents: the value is at most zero exactly in the region; it changes by no more than the distance of the points; outside it is the least distance to a point of the region, and inside, for a circle or a box, minus the least distance to the boundary, in unions no more than the distance to points outside; bounding boxes contain the region. Where the function is smooth (away from the centre of a circle, beside a side of a box by the width of the difference quotient, where the functions of a union differ) the gradient is the derivative and has length one, and moving a point outside by the value against the gradient brings it to value zero. False: that the value is the distance inside of unions; that boxes have gradients everywhere (at the centre they are not numbers); that points move to the boundary (beyond corners of boxes they stay outside).", "quantifier": "all functions built of circles, boxes and unions, all points", "why_tests_cant": "No test of the functions exists; minimality of distances and the derivatives quantify over all points.", "anchors": [{"file": "fenris-geometry/src/sdf.rs", "symbols": ["SdfCircle", "SdfAxisAlignedBox", "SdfUnion", "eval", "gradient", "bounding_box", "union"]}]}
{"id": "C95", "title": "Meshes from signed distance functions", "statement": "Voxelizing a bounding box panics exactly for a non-positive cell size or a box without interior; otherwise the cells are the squares of a grid, of side at most the given size, with the box's centre, which covers the box enlarged by 1% by less than one cell in each direction and fits it exactly in one. Voxelizing a function keeps exactly the cells with a corner in its region, which do not overlap, have no unused vertices, lie within a diagonal of the region and cover all points farther than half a diagonal from the outside. Moving vertices to the boundary never panics: vertices in the region stay, others move by the value of the function, at most a diagonal, and for unions of circles reach the region. The triangle mesh consists of the halves of the squares that have a vertex in the region, at least one of each square. False: that the region is covered (a circle smaller than a cell gives an empty mesh), and that the vertices reach the region for boxes.", "quantifier": "all functions built of circles, boxes and unions, all cell sizes", "why_tests_cant": "No tests call these functions; coverage and separation quantify over all points and all grids.", "anchors": [{"file": "src/mesh/procedural.rs", "symbols": ["voxelize_bounding_box_2d", "voxelize_sdf_2d", "approximate_quad_mesh_for_sdf_2d", "approximate_triangle_mesh_for_sdf_2d"]}, {"file": "src/mesh.rs", "symbols": ["cell_iter", "transform_vertices", "split_into_triangles", "keep_cells"]}]}
{"id": "C61", "title": "Cubic tetrahedral meshes and return to linear ones", "statement": "Converting a mesh of tetrahedra to Tet20 succeeds for indices in range and panics otherwise. It gives one cell of 20 nodes per cell, each node at the mean of the corners it stands for, which is the image of the same node of the reference Tet20 under the map of the cell; all vertices are used. Coinciding nodes stand for the same corners, and for cells of distinct vertices nodes that stand for the same corners coincide, whatever the order of the corners in the two cells. False for cells that repeat a vertex. Converting Tet10 to Tet4 keeps the coordinates of the corners of each cell and which of them coincide, and exactly the vertices in use; following the conversion from Tet4 to Tet10 it restores the cells.", "quantifier": "all meshes, all implementations of binary search that find what is there", "why_tests_cant": "The tests convert a few fixed meshes; whether neighbouring cells agree on the two nodes of an edge depends on all orders of the corner indices.", "anchors": [{"file": "src/mesh_convert.rs", "symbols": ["from", "normalized_vertex", "normalized_edge", "normalized_face", "unlabeled_vertices_for_tet4_element"]}, {"file": "src/connectivity.rs", "symbols": ["from"]}, {"file": "src/mesh.rs", "symbols": ["keep_cells"]}]}
{"id": "C96", "title": "Analytic polar decomposition", "statement": "The iteration returns a unit quaternion for every matrix, tolerance and number of iterations, so a rotation. Its gradient is the gradient of the squared distance of the rotation from the matrix along the curves it moves on, its step solves Newton's system with its own Hessian or is a negative multiple of the gradient, and never increases the distance to first order. Its fixed points are the rotations R with R^T F symmetric, and such a guess is returned unchanged. False: that its Hessian is the Hessian (the off-diagonal entries have the wrong sign, so it is only if they vanish), and that it approaches the polar rotation: for a positive definite matrix it alternates for ever between two rotations that are not the identity.", "quantifier": "all matrices, guesses, tolerances and iteration limits", "why_tests_cant": "The only test is the identity matrix with a rotation about a coordinate axis, where the off-diagonal entries vanish; the failure needs a stretch along a diagonal, and infinite alternation cannot be observed.", "anchors": [{"file": "src/util.rs", "symbols": ["apd"]}]}
{"id": "C97", "title": "Rotation-valued singular value decomposition, diagonal scaling and condition numbers", "statement": "Given factors U, S, V^T of a matrix with orthogonal U and V, rotation_svd returns factors of the same matrix whose orthogonal factors have the absolute values of the old determinants (so are rotations in one to three dimensions), with the same singular values up to the sign of a smallest one, negative exactly when the determinants had opposite signs; an empty matrix panics. diag_left_mul is the product with the diagonal matrix. The extremal eigenvalues returned are the least and greatest ones. The condition number is the greatest over the least modulus for positive eigenvalues. False: for all-negative eigenvalues it is the reciprocal, and for mixed signs it can be less than one.", "quantifier": "all dimensions, all factors and all lists of eigenvalues", "why_tests_cant": "Whether a reflection occurs in either factor depends on the matrix; no test has an indefinite matrix for the condition number.", "anchors": [{"file": "src/util.rs", "symbols": ["rotation_svd", "diag_left_mul", "min_eigenvalue_symmetric", "min_max_symmetric_eigenvalues", "condition_number_symmetric"]}]}
{"id": "C98", "title": "Matrix views, stacking, prefix sums, nodal values and iteration of quadrature rules", "statement": "reshape_to_slice succeeds exactly for the same number of entries, never reads outside the buffer, and keeps the entries column by column if and only if the view is column-major. False: that it does so for every view (its strides are ignored). coerce_col_major_slice succeeds exactly for the same shape with strides 1 and the number of rows, and changes no entry. False: that it accepts every column-major view. flatten_vertically stacks the rows in order and succeeds exactly for equal numbers of columns (and of rows for the _into form). prefix_sum returns the exclusive prefix sums and panics exactly if the total overflows. extract_by_node_index gathers the components of the listed nodes and panics exactly for a node beyond the vector. The iterator of a quadrature rule visits weights, points and data in step and is fused; integrate is the weighted sum; conversion acts on each weight and coordinate.", "quantifier": "all buffers, views, lists of matrices, counts, vectors, node lists and rules of any lengths", "why_tests_cant": "The crate only reshapes packed matrices; strided views, overflow of the last sum and rules with missing points are never exercised.", "anchors": [{"file": "src/util.rs", "symbols": ["reshape_to_slice", "coerce_col_major_slice", "coerce_col_major_slice_mut", "extract_by_node_index"]}, {"file": "util/src/lib.rs", "symbols": ["flatten_vertically_into", "flatten_vertically", "prefix_sum"]}, {"file": "src/quadrature.rs", "symbols": ["integrate", "iter", "next", "data", "from", "convert_quadrature_rule_from_1d_f64", "convert_quadrature_rule_from_2d_f64", "convert_quadrature_rule_from_3d_f64"]}, {"file": "fenris-quadrature/src/lib.rs", "symbols": ["integrate"]}]}
{"id": "C99", "title": "Half spaces, planes and triangles", "statement": "For a unit normal the modulus of signed_distance_to_point is the distance to the boundary. A half space and its complement have opposite signed distances and cover space. False: that they are disjoint (they share exactly the boundary). The surface of a half plane is its boundary with the half plane on its right. The sides of a triangle are its edge vectors and sum to zero, and its centroid lies in every half space containing the vertices. In the plane the signed area is half the orientation determinant and changes sign when two vertices are swapped. In space the normal direction is orthogonal to the sides with twice the area as length. point_orientation is the sign of the offset from the plane along the normal and is reversed by swapping vertices. False: that orientation in space is (it is always clockwise).", "quantifier": "all dimensions of half spaces, all triangles and points", "why_tests_cant": "Tests use a few triangles; degenerate triangles, points on the boundary and orders of vertices are not enumerated.", "anchors": [{"file": "fenris-geometry/src/primitives/half_space.rs", "symbols": ["signed_distance_to_point", "contains_point", "complement", "plane", "from_plane", "surface"]}, {"file": "fenris-geometry/src/primitives/plane.rs", "symbols": ["flipped"]}, {"file": "fenris-geometry/src/predicates.rs", "symbols": ["orient2d_inexact"]}, {"file": "fenris-geometry/src/primitives/triangle.rs", "symbols": ["swap_vertices", "edge", "centroid", "sides", "orientation", "signed_area", "area", "normal_dir", "normal", "point_orientation"]}]}
{"id": "C100", "title": "Rounding errors of assembly and integration in f64", "statement": "In IEEE double arithmetic, unless the sum of the moduli (with an allowance) reaches 2^1024: a sum computed along any tree of additions of depth d is a finite double and differs from the exact sum by at most ((1+u)^d - 1) times the sum of the moduli, u = 2^-53. So every run of the parallel scalar, vector and matrix assembly, for every schedule, and the serial assembly each differ from the exact sums by at most that, with d the number of terms less one. Integration with a quadrature rule differs from the exact weighted sum by at most (1+u)^n (A + E) - A, with A the sum of the moduli and E the errors of the function values and of underflow; with a tabulated rule this bounds the difference from the integral of a polynomial. False: parallel runs agree bit for bit.", "quantifier": "all lists of doubles, all trees, schedules, splittings, rules and functions", "why_tests_cant": "Tests compare a few runs with a tolerance that is chosen by hand; they do not bound the error for all schedules and sizes.", "anchors": [{"file": "src/assembly/global.rs", "symbols": ["assemble_scalar", "par_assemble_scalar", "VectorParAssembler", "CsrParAssembler", "VectorAssembler", "CsrAssembler"]}, {"file": "src/quadrature.rs", "symbols": ["integrate"]}, {"file": "fenris-quadrature/src/lib.rs", "symbols": ["integrate"]}]}
{"id": "C101", "title": "Element assembler adapters: transformations, relabelled nodes, several bodies", "statement": "Assembling a transformed assembler adds the transformed element scalars, vectors or matrices, up to the first element whose assembly or transformation fails, and returns that failure. An additive transformation of the element quantities transforms the assembled result. With map_element_nodes and an injective map the entries of the assembled vector and matrix move to the new indices unchanged (bit for bit) and all other entries are zero; with any map the entries of nodes with the same label are summed (P^T A P); a label outside the declared range makes vector assembly panic. An aggregate of bodies with shifted nodes assembles the concatenation of their vectors and the block-diagonal matrix of their matrices, or fails like the first failing body.", "quantifier": "all assemblers, transformations, node maps, numbers of bodies, previous workspace contents, orders of hash sets and unstable sorts", "why_tests_cant": "The adapters compose with every assembler and every map; tests check a few compositions.", "anchors": [{"file": "src/assembly/local.rs", "symbols": ["MapElementNodes", "TransformElementScalar", "TransformElementVector", "TransformElementMatrix", "map_element_nodes", "assemble_element_vector", "assemble_element_matrix", "AggregateElementAssembler"]}]}
{"id": "C102", "title": "Mass and stiffness matrices of simplices with the shipped quadrature tables", "statement": "With the rule files that are shipped, read as doubles, the canonical quadratures of the triangles with 3 and 6 nodes and of the tetrahedra with 4, 10 and 20 nodes exist. For all vertices, every entry of the element mass matrix with constant density differs from the exact integral by at most 1, 16, 4, 100, 3969 times 10^-15 |density det J|, and entries between components vanish. If the element is not degenerate, every entry of the Laplace stiffness matrix differs from the exact integral by at most 1/4, 16, 1/4, 36, 4624 times 10^-15 |det J| d |J^-1|^2.", "quantifier": "all vertices, densities, numbers of components, directories that contain the shipped files of low strength", "why_tests_cant": "The bound holds for all element shapes at once; tests compare single elements with tolerances.", "anchors": [{"file": "src/quadrature/canonical.rs", "symbols": ["CanonicalMassQuadrature", "CanonicalStiffnessQuadrature"]}, {"file": "fenris-quadrature/src/polyquad.rs", "symbols": ["triangle", "tetrahedron"]}, {"file": "src/assembly/local/mass.rs", "symbols": ["assemble_element_mass_matrix"]}, {"file": "src/assembly/local/elliptic.rs", "symbols": ["assemble_element_elliptic_matrix"]}]}
{"id": "C103", "title": "The search for Gauss points always ends, and the rules are almost exact", "statement": "For every number of points n > 0 and every starting point of the code, Newton's method in gauss(n), in exact arithmetic, ends after at most five steps. The (i+1)-th search ends at a point x beside the (i+1)-th largest zero z of the Legendre polynomial: 0 <= x - z <= (n+1/2)^2 / 10^30 and x - z <= z / (4 (n+1/2)^2). The rule has n points in decreasing order in (-1,1) and n positive weights. It integrates every polynomial of degree 2n-1 with an error of at most 5 (n+1/2)^4 / 10^30 times the sum of the absolute values of the coefficients. The tensor rules on the square and the cube have n^2 and n^3 points inside and errors of at most 25 and 80 times (n+1/2)^4 / 10^30 times that sum, for polynomials of degree 2n-1 in each variable.", "quantifier": "all numbers of points, all search indices, all polynomials", "why_tests_cant": "The comment in the code asks whether the loop can run forever; tests run it for finitely many n.", "anchors": [{"file": "fenris-quadrature/src/univariate.rs", "symbols": ["gauss"]}, {"file": "fenris-quadrature/src/tensor.rs", "symbols": ["quadrilateral_gauss", "hexahedron_gauss"]}]}
{"id": "C104", "title": "Mass and stiffness matrices of quadrilaterals and hexahedra with the Gauss rules of the code", "statement": "With the Gauss rules that the root search of the code actually finds (at most five Newton steps), the canonical quadratures of quad4, quad9, hex8, hex20 and hex27 exist, and assembly of the element mass matrix succeeds. If the determinant of the map keeps its sign and is a polynomial p of degree one in each variable, every entry of the mass matrix with constant density rho differs from the exact integral by at most |rho| * (sum of |coefficients of p|) * c / 10^30 with c between 977 and 768320 depending on the element; entries between different components are exactly zero. The determinant of every quadrilateral is such a polynomial, and the sum of its coefficients is at most twice the determinant in the middle. If the Jacobian is constant and not singular, every entry of the stiffness matrix of the Laplace operator differs from the exact one by at most |det J| * d * |J^-1|^2 * c / 10^30.", "quantifier": "all vertices with these properties, all densities, all entries, all step limits of at least five", "why_tests_cant": "Tests assemble a few matrices and compare with a tolerance of 1e-10 or so.", "anchors": [{"file": "src/quadrature/canonical.rs", "symbols": ["CanonicalMassQuadrature", "CanonicalStiffnessQuadrature"]}, {"file": "fenris-quadrature/src/univariate.rs", "symbols": ["gauss"]}, {"file": "src/assembly/local/mass.rs", "symbols": ["assemble_element_mass_matrix"]}]}
{"id": "C105", "title": "Assemble, impose boundary conditions, solve: the result is the minimiser of the energy", "statement": "The whole path of a linear simulation. On a mesh of elements that are not degenerate at the quadrature points, with positive quadrature weights: assembling the matrix of the Laplace operator (or of linear elasticity with positive shear and bulk modulus at every point) and the source vector, imposing homogeneous Dirichlet conditions on both, and solving with conjugate gradients without preconditioner all succeed, the last in at most as many iterations as there are unknowns, from every starting point, with a residual as small as requested. The exact result (tolerance zero) is zero at the fixed nodes, is the only minimiser of assembled energy minus work of the source among all such functions, and solves the discrete weak form for all test functions. The condition that no energy-free function is left but zero holds for every mesh of triangles in the plane or tetrahedra if every node is connected through cells to a fixed one (Laplace), or is held cell by cell: fixed, or the only node of a cell that is not held (elasticity). Young's modulus above zero and Poisson's ratio between -1 and 1/2 give positive moduli.", "quantifier": "all meshes, quadrature tables, material parameters per point, sources, fixed nodes, previous contents of workspaces, starting points and tolerances with these properties", "why_tests_cant": "Integration tests solve a few problems on a few meshes and compare error norms; they cannot show that the system is never singular or indefinite and that the solver never breaks down.", "anchors": [{"file": "fenris-sparse/src/cg.rs", "symbols": ["LinearOperator", "IdentityOperator", "solve_with_guess"]}, {"file": "src/assembly/global.rs", "symbols": ["apply_homogeneous_dirichlet_bc_csr", "apply_homogeneous_dirichlet_bc_rhs", "CsrAssembler", "VectorAssembler"]}, {"file": "src/assembly/local/elliptic.rs", "symbols": ["ElementEllipticAssembler"]}, {"file": "src/assembly/local/source.rs", "symbols": ["ElementSourceAssembler"]}, {"file": "fenris-solid/src/materials.rs", "symbols": ["LinearElasticMaterial"]}]}
{"id": "C106", "title": "Internal forces are balanced and rigid motions change no assembled energy", "statement": "On a mesh of elements that are not degenerate at the quadrature points: the assembled force vector times any discrete displacement is the integral of stress against its gradient (virtual work). If basis functions of each element add up to a constant, the forces at all nodes add up to zero for every operator. If the geometry is the interpolation of the node positions, forces of a material whose stress satisfies P F^T = F P^T have no torque about the deformed positions; this holds for St. Venant-Kirchhoff and not inverted Neo-Hookean materials, and linear elasticity has no torque about the undeformed positions. Moving the deformed body by a rotation and a translation leaves the assembled energy of both nonlinear materials unchanged and rotates the forces. The assembled matrix of linear elasticity is symmetric, equals the bilinear form of the strains, is positive semidefinite, has all translations and linearised rotations in its kernel and, for positive weights, no displacements but those without strain. The spaces of meshes of all element types meet the conditions if every node lies where the geometry map puts it; linear meshes always do, and the conversions to Tri6, Quad9, Tet10, Tet20, Hex20 and Hex27 return such meshes.", "quantifier": "all meshes and element types, displacements, rotations, translations, material parameters per quadrature point, quadrature tables, previous contents of workspaces", "why_tests_cant": "Tests compare stresses with finite differences for single elements; conservation of momentum and angular momentum is a statement about whole meshes and all displacements.", "anchors": [{"file": "src/assembly/local/elliptic.rs", "symbols": ["ElementEllipticAssembler"]}, {"file": "src/assembly/global.rs", "symbols": ["VectorAssembler", "CsrAssembler", "compute_global_potential"]}, {"file": "src/space/space_impl.rs", "symbols": ["Mesh as FiniteElementSpace"]}, {"file": "fenris-solid/src/materials.rs", "symbols": ["LinearElasticMaterial", "StVKMaterial", "NeoHookeanMaterial"]}, {"file": "fenris-solid/src/lib.rs", "symbols": ["compute_elliptic_operator_transpose"]}, {"file": "src/mesh_convert.rs", "symbols": ["From<Mesh>"]}]}
{"id": "C107", "title": "The quadrature that meshes choose leaves no spurious modes: definite mass matrices and solvable problems for every element type", "statement": "For every element type with canonical quadrature (Tri3, Tri6, Quad4, Quad9, Tet4, Tet10, Tet20, Hex8, Hex20, Hex27), with the table files of the repository and Gauss points from at least five Newton steps: the rules for mass and stiffness are found and have positive weights; a function of the element that is zero at all points of the mass rule is zero, and one whose gradient is zero at all points of the stiffness rule is constant. With one point less per direction this fails: Quad4, Hex8 with one point and Quad9, Hex27 with two points per direction have functions that are not constant and have no gradient at the points. Consequences for meshes whose elements are not degenerate at the points: the assembled mass matrix with positive densities is positive definite if every node belongs to a cell; assembling the Poisson problem, fixing nodes and solving gives the minimiser of the energy if every node is connected to a fixed node through cells; the same for linear elasticity on affine cells if every node is pinned, in steps, by nodes with which it shares cells in directions that span the space. Triangles and tetrahedra of all degrees are affine.", "quantifier": "all meshes of the ten element types, nodal values, densities, materials, sources, fixed nodes satisfying the condition; all table directories with the listed files; any number of Newton steps from five", "why_tests_cant": "Tests check the strength of rules on monomials; that no function of the element is invisible to a rule is a statement about all functions, and the table rules are only approximately exact, so it needs an error bound.", "anchors": [{"file": "src/quadrature/canonical.rs", "symbols": ["CanonicalMassQuadrature", "CanonicalStiffnessQuadrature"]}, {"file": "src/assembly/local/quadrature_table.rs", "symbols": ["UniformQuadratureTable::from_quadrature"]}, {"file": "src/assembly/global.rs", "symbols": ["CsrAssembler"]}, {"file": "src/assembly/local/mass.rs", "symbols": ["ElementMassAssembler"]}, {"file": "fenris-sparse/src/cg.rs", "symbols": ["ConjugateGradient"]}]}
{"id": "C108", "title": "Patch test: in a state of uniform deformation no force acts on nodes inside the mesh", "statement": "For meshes of Tri3, Tri6, Quad4, Quad9, Tet4, Tet10, Hex8, Hex20 and Hex27 elements with nodes where the geometry map puts them, whose elements preserve orientation at the quadrature points and whose neighbours list the nodes of a common face in opposite directions: if the rules of all cells integrate the polynomials that occur (constants for Tri3, Tet4; degree one for Tri6, Tet10; degree 1, 2 per variable for Quad4, Quad9; 2, 3, 3 for Hex8, Hex20, Hex27) up to a common factor, then assembling the forces of any operator with uniform parameters at nodal values that are an affine function of the positions succeeds, and the force at every node that find_boundary_vertices does not return is zero. In particular the integral of the gradient of each basis function over a cell is a sum over the faces of the cell, as listed by its connectivity, that changes sign when the face is reversed.", "quantifier": "all meshes, positions of nodes, operators (with or without energy), affine states, solution dimensions, quadrature tables meeting the condition, previous contents of workspaces", "why_tests_cant": "Consistency with the faces holds for every position of the nodes, including curved cells, every mesh and every material; a test fixes one patch.", "anchors": [{"file": "src/assembly/local/elliptic.rs", "symbols": ["ElementEllipticAssembler"]}, {"file": "src/assembly/global.rs", "symbols": ["VectorAssembler"]}, {"file": "src/mesh.rs", "symbols": ["Mesh::find_boundary_vertices"]}, {"file": "src/connectivity.rs", "symbols": ["Connectivity::get_face_connectivity"]}, {"file": "src/element/hexahedron.rs", "symbols": ["Hex8Element", "Hex20Element", "Hex27Element"]}]}
{"id": "C109", "title": "Uniform meshes of rectangles and boxes are ready for computations", "statement": "For a positive unit length and positive numbers of units and cells, create_rectangular_uniform_quad_mesh_2d, its split_into_triangles and create_rectangular_uniform_hex_mesh (and the unit square and unit box made with them) give meshes whose cells have distinct nodes in range, are affine images of the reference element and preserve orientation everywhere; neighbours list the nodes of a common face in opposite directions; every node belongs to a cell and lies in the box; find_boundary_vertices returns exactly the nodes on the sides of the box. Every node is connected to every other, and fixing as many nodes of one cell as there are dimensions pins all nodes. Therefore, with the canonical quadrature rules, the Poisson problem is uniquely solvable with any fixed node (such as all boundary vertices), linear elasticity is with two (three) fixed nodes of one cell, mass matrices with positive densities are positive definite, and for rules of the required degree no force acts on nodes inside the box at an affine state.", "quantifier": "all unit lengths > 0, numbers of units and cells per unit > 0, top left corners, sets of fixed nodes, sources, materials, operators, previous contents of workspaces", "why_tests_cant": "Holds for every resolution and every choice of fixed nodes; tests solve on a few resolutions with one kind of boundary condition.", "anchors": [{"file": "src/mesh/procedural.rs", "symbols": ["create_unit_square_uniform_quad_mesh_2d", "create_unit_square_uniform_tri_mesh_2d", "create_unit_box_uniform_hex_mesh_3d", "create_rectangular_uniform_quad_mesh_2d", "create_rectangular_uniform_hex_mesh"]}, {"file": "src/mesh.rs", "symbols": ["Mesh::find_boundary_vertices", "QuadMesh2d::split_into_triangles"]}, {"file": "src/assembly/global.rs", "symbols": ["CsrAssembler", "VectorAssembler", "apply_homogeneous_dirichlet_bc_csr"]}]}
{"id": "C110", "title": "Uniform tetrahedral meshes of boxes are ready for computations", "statement": "For a positive unit length and positive numbers of units and cells, create_rectangular_uniform_tet_mesh (and the unit box made with it) does not panic and gives a mesh whose tetrahedra have four distinct nodes in range and positive Jacobians; two tetrahedra with a common face list its nodes in opposite directions; every node belongs to a tetrahedron and lies in the box; find_boundary_vertices returns exactly the nodes on the sides of the box (so that there is no gap inside). All tetrahedra are connected across faces, and three fixed nodes of one tetrahedron pin all nodes. Hence the consequences of C109 hold for these meshes too. On all four kinds of uniform meshes (quadrilaterals, triangles, hexahedra, tetrahedra) the Poisson problem and linear elasticity with stable materials are solvable when the fixed nodes are those that find_boundary_vertices returns.", "quantifier": "all unit lengths > 0, numbers of units in each direction > 0, cells per unit > 0", "why_tests_cant": "The construction distinguishes inner faces, six sides and the parity of cells, so that many kinds of faces meet; tests look at a few resolutions and only count cells or compare volumes.", "anchors": [{"file": "src/mesh/procedural.rs", "symbols": ["create_rectangular_uniform_tet_mesh", "create_unit_box_uniform_tet_mesh_3d"]}, {"file": "src/mesh.rs", "symbols": ["Mesh::find_boundary_vertices"]}]}
{"id": "C111", "title": "Equilibrium states are unique, and affine functions are reproduced exactly", "statement": "For the Laplace operator and for linear elasticity with stable materials, assembled by ElementEllipticAssembler and VectorAssembler on a mesh of any element type with its canonical stiffness quadrature: if two vectors of nodal values agree at nodes to which all others are connected (for elasticity: which pin all others), and the assembled forces agree at all other nodes, then the vectors are equal. On every mesh of triangles or tetrahedra with positive Jacobians whose common faces are listed in opposite directions, nodal values that agree with an affine function at the boundary vertices which find_boundary_vertices returns, and leave no force at other nodes, exist, and agree with the affine function at all nodes, provided the boundary vertices connect (pin) all nodes. In particular on uniform triangle meshes of rectangles and uniform tetrahedral meshes of boxes, nodal values that agree with an affine function at the nodes on the sides and leave no force at the nodes inside exist, and agree with the affine function at all nodes.", "quantifier": "all element types with a canonical stiffness rule, meshes, fixed nodes, materials that may vary from point to point (uniqueness); all oriented meshes of triangles or tetrahedra, all sizes and resolutions of the uniform meshes, all affine functions, all stable uniform materials (affine functions)", "why_tests_cant": "Tests solve a few problems on small meshes and compare with tolerances; that no other vector satisfies the equations is a statement about all vectors, and follows from definiteness on every mesh.", "anchors": [{"file": "src/assembly/local/elliptic.rs", "symbols": ["ElementEllipticAssembler", "assemble_element_elliptic_vector"]}, {"file": "src/assembly/global.rs", "symbols": ["VectorAssembler::assemble_vector"]}, {"file": "src/assembly/operators/laplace.rs", "symbols": ["LaplaceOperator"]}, {"file": "fenris-solid/src/materials.rs", "symbols": ["LinearElasticMaterial"]}, {"file": "src/mesh/procedural.rs", "symbols": ["create_rectangular_uniform_tet_mesh", "create_rectangular_uniform_quad_mesh_2d"]}]}
