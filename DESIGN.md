# Formal model of fenris — design

Target: `InteractiveComputerGraphics/fenris` as pinned in `/repo` (Rust). The code is read as text only.
The model and the proofs are in Rocq/Coq 8.16.1 under `rocq/theories`.

## 1. Method

* **Models** (`*Model.v`): one Gallina function per Rust function, each with a comment citing the file and
  lines it transcribes and any simplification. Models contain no proofs.
* **Specifications** (`*Spec.v`): small, independent definitions of what a user expects (plain lists, sums,
  predicates); they do not use the helpers of the model.
* **Proofs** (`*Proofs.v`): lemmas.
* **Property files** (`Prop*.v`): only the property theorems (`exact lemma`), a `Print Assumptions` each and a
  concrete example meeting the hypotheses next to it.

### Conventions of the model

* `usize` is `nat` (no overflow; machine limits are out of scope unless the code checks them explicitly, as with
  the `i32` colour counter). Vectors and slices are `list`.
* A panic is an explicit value (`Panic`, or `None` where the only failure is a panic); an `eyre`/`Result` error
  is `Err e`. Out-of-bounds indexing that Rust would answer by a panic is a panic in the model, never a default.
* User callbacks (element assemblers, operators, functions) are `Section` variables or function arguments, so every
  theorem is quantified over all of them. Callbacks that may fail return a result.
* Loops over ranges are folds; `while` loops are recursion on fuel, with a theorem that the fuel suffices.
* Unspecified choices (hash-set iteration order, unstable sorts, thread schedules, rayon split and reduction trees)
  are universally quantified: the model is a relation, or takes the choice as an argument, and theorems hold for all.
* Scalars. Where only additions matter the scalar type is abstract (any type with an addition; associativity and
  commutativity are hypotheses only of the theorems that need them, so that the determinism theorems hold for
  floating-point addition). Geometry, elements, quadrature, solvers and materials are modelled over the exact reals
  `R`: rounding is not modelled, except for the sums of C100, which are in doubles. NaN/infinity are outside these models, unless a property says otherwise.

## 2. Trusted base

* Coq's kernel (checked again by `coqchk`), and the correspondence between the Gallina definitions and the Rust
  text, which is by reading (each definition cites its source lines).
* `Print Assumptions` follows every property theorem in the `Prop*.v` files. The theorems about lists, colours,
  assembly, meshes and permutations are closed under the global context. The theorems over the reals rest on the
  standard library's axioms for `R` (`ClassicalDedekindReals.sig_forall_dec`, `ClassicalDedekindReals.sig_not_dec`,
  `FunctionalExtensionality.functional_extensionality_dep`) and, where Coquelicot's derivative or `ln` or Flocq's
  rounding is used, `Classical_Prop.classic`. No axiom is added.
* Not modelled: Rust's memory model and the compiler, nalgebra and nalgebra-sparse internals (modelled by their
  documented behaviour), rayon's scheduler (all split trees, reduction trees and interleavings of single writes are
  covered instead), floating-point rounding outside C83, C84, C91 and C100, I/O (`src/io`, vtk), serde, `Debug` output.

## 3. Properties: model and proof plan

| Id | Model | Proof |
|----|-------|-------|
| C01 | `NestedVec` as (data, begins, ends); operations as functions; a history is a list of operations | representation invariant "offsets tile the data", simulation with `list (list T)` by induction over histories |
| C02 | same, plus conversions and derived equality | canonical-form lemma: invariant determines offsets from contents; refutation with a leaked appender |
| C03 | hash sets as duplicate-free lists in arbitrary order | loop invariant: global set = union of previous subsets |
| C04 | producer and iterator as index ranges; split trees and consumption scripts as inductive types | induction over split tree and script |
| C05 | accessed indices as a list; block adapter as index map `b*i+k` | from C03/C07 and arithmetic of blocks |
| C06 | the two assertions at the start of `subsets_par_iter` | characterisation in release mode, refutation in debug mode |
| C07, C08 | colouring loop with the last-visited table, fuel = number of subsets | loop invariants over the inner pass and the outer loop |
| C09, C21 | scatter/gather over vectors as lists of an abstract scalar | induction over elements; sums as `fold` in element order |
| C10, C16 | tasks as lists of single-location updates; arbitrary interleavings | commutation of updates with disjoint footprints |
| C11 | C07 + C10 + rearrangement of sums | permutation invariance of sums in a commutative monoid |
| C12, C13 | per-node sets filled in arbitrary order; offsets and columns | sortedness and membership lemmas; all insertion orders |
| C14, C15, C17 | CSR row insertion with the forward-only cursor, sorted permutation as any sorting permutation | cursor invariant; refutation for repeated nodes |
| C18, C19 | CSR rows as lists of (column, value); dense matrix as function/list | loop invariants; refutation without structural symmetry |
| C20 | reduction trees | induction over trees |
| C22–C25 | permutations as lists, BFS with a queue and oracle for ties | visited-set invariant, measure for termination |
| C26, C27 | faces as index lists, ordered map as sorted association list | counting lemma, membership both ways |
| C28, C29 | refinement loops with first-appearance numbering map | injectivity of label maps; area identities over `R` by `ring` |
| C30, C31 | grid index arithmetic | `nia`/`lia`, sums by induction; refutation |
| C32 | offsets table and binary search (any index with equal key may be returned) | uniqueness when strictly increasing; refutation |
| C33 | list of (type id, value) slots | invariant "no duplicate type id" |
| C34, C35 | nested vectors of rules, compressed rows | extensional equality |
| C36, C37 | CG state machine over an abstract inner-product space over `R` | residual invariant; conjugacy by induction on iterations; dimension argument for finite termination |
| C38, C39 | Newton loop over abstract vector space with norm | execution invariant |
| C40 | finite differences over lists of reals | algebra |
| C41–C49 | geometry over `R`, points as lists or pairs | `nra`/`lra`/`field`, inductions over vertex lists; refutations by explicit witnesses |
| C50 | polymesh faces and cells as nested lists | relabelling lemma |
| C51–C53 | basis functions transcribed over `R` | `ring`/`field`, Coquelicot `is_derive` |
| C54 | rules as lists of weights and points | sums over products; affine substitution in iterated integrals, telescoping over rows of cells |
| C58–C60 | element and node tables, face tables | `vm_compute` on tables for finite parts, induction over meshes |
| C62–C65 | orthonormal frames, clipped polygons, signed distance over `R` | `nra`/`field`, sums around loops |
| C66–C71 | polymeshes as nested lists, points of any type | relabelling invariants, parity of sides around closed surfaces |
| C69, C72–C74 | polygons and polyhedra in space over `R` | sums around loops, cancellation over oriented surfaces; convex bodies by a leaving argument; refutations by witnesses |
| C55–C57, C75 | materials over `R`, derivatives of Coquelicot | derivative rules for finite sums, explicit cofactors; Hadamard inequality |
| C76, C77 | local assembly over `R` | physical gradients characterised by the chain rule, derivatives of finite sums, folds over blocks |
| C78, C79 | global assembly with thread-local workspaces | linearity of scatter, derivatives of finite sums |
| C80 | Legendre recurrence and the loops of `gauss`, root search as an argument | Rodrigues-free: differential equation from the recurrences, orthogonality by parts, interpolation; interlacing zeros by the intermediate value theorem |
| C81 | the tables of `canonical.rs`, with tabulated rules as arguments | degrees of basis functions, gradients and determinants by a compositional degree calculus; errors of Gauss rules from the square of the Legendre polynomial |
| C82 | directory entries, file names, sorted rules, selection with increasing strength | grammar of names and texts as predicates; permutation and minimality lemmas |
| C83 | lines, words and entries of a text; decimals as mantissa and exponent | equivalence of the parser with a grammar of rows; Flocq's `round` to nearest even |
| C84 | the shipped files | exact moments of the six domains by recurrences; fixed-point evaluation in units of 2^-64 with proved error bounds, computed by `vm_compute` |
| C85 | volume form, integrand variants, loops over zipped weights and points, workspaces | Gram determinants as sums of squared minors; loop lemmas; C20 for the mesh |
| C86 | integrands of the error estimates, square roots | discriminant argument for the triangle inequality; C79 for the matrices |
| C87 | candidates on edges or faces, interior candidate by inversion, tolerance | exit from a simplex along a segment in barycentric coordinates; kernels of singular Jacobians; Pythagoras for projections |
| C88 | boxes enlarged by 1.01, pruning, loop with early return | boxes contain elements (C41 and convexity); entries that are cut off are farther than a point of the first element; invariant of the loop |
| C89 | loops over points with a shared buffer; gradients by the inverse Jacobian; search | loop lemmas with a result that does not depend on the buffer; C35, C88; uniqueness of barycentric weights and transfer to common vertices |
| C90 | Newton loop of C38 on the geometry map; Gauss–Newton loop | simplices are affine: one step; quadrilaterals: from the first step on the iterates lie on one line through the solution, with a scalar recursion that halves the parameter; witnesses by an explicit recursion and an explicit cycle |
| C91 | literals rounded to doubles; match on the size | fixed-point evaluation of all moments with proved rounding errors (as for C84), then linearity; bound on the degree by the polynomial (1 - x^2) times the squared node polynomial of the inner nodes |
| C92 | file as nested lists; outcome Ok, Err or Panic | monadic loops as relations on lists; Gmsh's numbering as means of corners, evaluated through the geometry maps |
| C93 | builder record, legacy cell list | relational reader; node order as a list of positions; VTK's numbering as means of corners; induction over builder calls |
| C94 | functions as trees | regions and distances stated separately; nearest points by clamping; derivatives with Coquelicot; induction over unions |
| C95 | uniform grid of C30, selection of cells of C27, functions of C94 | ceiling bounds; nearest corner of a cell; strict monotonicity of the box function outside |
| C61 | keys are canonical representatives of multisets of three corners | sortedness of the keys, uniqueness of sorted permutations, C27 and C29 |
| C96 | closed form of the distance along the Cayley curve | derivatives of rational functions; exact two-cycle with rational coordinates |
| C97 | factorisation and orthogonality stated entrywise | negating a column and the matching singular value keeps the product; determinants by expansion |
| C98 | entries counted column by column; positions in concatenations | counting distinct addresses bounds the buffer; inductions over lists |
| C99 | distance by Cauchy's inequality; vector identities | polynomial identities per pair of vertices |
| C100 | the generic models with Flocq's binary64 addition and multiplication | one invariant (error against modulus after n roundings) for additions, products and adding zero; the parallel assemblies add a permutation of the contributions |
| C101 | `AdapterModel`, serial assembly | the adapters meet the callback contracts of C09 and C14 with changed lists; contributions are grouped by the old node |
| C102 | `CanonicalModel` over `PolyquadModel`, `EllipticModel` | basis functions and gradients as polynomials with bounded coefficient sums (`SizedPoly`), so C84 bounds the error of their products |
| C103 | `QuadratureModel` | distances of neighbouring zeros by Sturm comparison (Prüfer phase of sqrt(sin t) P(cos t)), symmetry gives the distance of zeros from the starting points; right of a positive zero the polynomial is convex with bounded second derivative, so Newton's method decreases and converges quadratically; the weights are compared with those at the zeros |
| C104 | `QuadratureModel`, `CanonicalModel`, `EllipticModel` | basis functions and gradients are polynomials of bounded degree in each variable with a bounded sum of coefficients (`SizedTensor`); C103 bounds the error of the tensor rules for such polynomials; an affine function that is not negative on the square has slopes at most its value in the middle |
| C105 | `GlobalModel`, `CsrModel`, `DirichletModel`, `OperatorModel`, `CgModel` | C78: the assembled matrix is the second derivative of the assembled energy, so for quadratic energies its form is the difference of energies; positive weights and the kernel condition make it positive definite on functions that are zero at the fixed nodes; C18 (Dirichlet) extends this to the whole matrix; CG then ends with the solution in at most n steps (C36, C37). For linear triangles and tetrahedra the kernel condition is an induction over the cells: a gradient a b^T with b not zero and no symmetric part has a = 0 |
| C106 | `GlobalModel`, `MaterialModel`, `ElementSpaceModel`, `ConvertModel`, `Tet20Model` | the assembled vector paired with a test function is the integral of stress times gradient (scatter and local vectors of C78); constant and rotational test functions have gradients 0 and W F; rotation of the deformed positions rotates F, then C75. The matrix of linear elasticity by C105's polarisation. Maps of all element types are in their polynomial spaces, so by C53 the map is the interpolation of its values at the nodes, and its Jacobian the sum of gradients; nodes of converted meshes from C29, C61 |
| C107 | `CanonicalModel`, `PolyquadModel`, `QuadratureModel`, `ElementSpaceModel`, `GlobalModel` | for each space of polynomials a dual basis (`UnisolventRules`): integer combinations of moments that give each coefficient; if a polynomial vanishes at the points of a rule then so do the rule's values of its products with the dual polynomials, and the error bounds of C84 and C102-C104 (rule against integral) make the coefficients smaller than themselves, so zero. Derivatives of the basis functions lie in known spaces (`SizedPoly`, `SizedTensor`). For meshes: the chain rule, induction over connections between nodes, C105 and C79. For elasticity, the difference of displacements along the line between two nodes is the integral of a function of the same space that vanishes at the points |
| C108 | `MeshModel`, `ElementModel`, `ElementSpaceModel`, `GlobalModel` | the cofactors of the Jacobian times the gradient of a basis function have low degree (`PatchCells`, `PatchHexCells`), so their integral is that of a small exact rule, which is compared with a sum over faces for each node: by ring identities for two dimensions and tetrahedra, and for hexahedra by splitting the flux into products of functions of one variable (`PatchHex`). Loads of a face change sign under each order of nodes that a neighbour may use; the sum over all faces then pairs off except at the boundary |
| C109 | `ProcModel`, `VoxelModel`, `MeshModel`, `GlobalModel` | a face of the grid is determined by its smallest and its largest node (`GridProofs`), which reduces agreement of faces, in any order, to linear arithmetic on grid coordinates; cells are connected along lines through common faces (`GridLinks`); in a cell, corners are integer points, and that enough of them span the space is decided once on the integer determinants. Consequences are instances of C107 and C108 |
| C110 | `ProcModel`, `VoxelModel`, `MeshModel` | each tetrahedron is one of 36 shapes moved to a cell (`TetTables`, `TetGrid`; a shape occurs depending on the axis, the side and the parity of the cell); that two faces with the same nodes are opposite, and that each face inside the box has a partner, is decided for shapes, relative positions and flags (at which sides is the cell, its parity) and then moved to all cells (`TetFaces`); tetrahedra around a cell are connected, and neighbouring cells share some (`TetLinks`) |
| C111 | `GlobalModel`, `EllipticModel`, `MaterialModel`, `ElementSpaceModel`, `ProcModel` | the difference of the forces of two states, applied to the difference of the states, is the integral of a quadratic energy (`equal_states`); it vanishes, hence so do the gradients or strains at all quadrature points, and connected or pinned nodes have the same values (C107); the affine state is in equilibrium by the patch test (C108, C109) |

## 4. Modelled code

Exact lines are cited at each definition. `…Model.v` files and what they cover:

| Model file | Code | Left out / simplified |
|---|---|---|
| `NestedVecModel.v` | `nested-vec/src/lib.rs` | serde, `Debug`, capacity |
| `ParadisModel.v` | `fenris-paradis/src/{lib,coloring,adapter,slice}.rs` | raw pointers are index lists; `DisjointSubsets` buffers by their access lists |
| `VectorModel.v` | vector and scalar assembly in `src/assembly/global.rs`, gather/scatter in `src/util.rs` | element callbacks are functions of the element index that overwrite whatever is in the (reused, not zeroed) buffer |
| `CsrModel.v` | CSR assembly and patterns in `src/assembly/global.rs`, row access in `fenris-sparse/src/sparse.rs` | the unstable argsort is any sorting permutation; `CsrMatrix` is (offsets, columns, values); per-node mutexes make each insertion atomic |
| `DirichletModel.v` | `apply_homogeneous_dirichlet_bc_{csr,matrix,rhs}` in `src/assembly/global.rs` | `CsrMatrix`/`DMatrix` accessors by their documented behaviour |
| `ReorderModel.v` | `src/mesh/reorder.rs` | both sorts are any sorting permutation; a mesh is (vertices, cells as index lists) |
| `MeshModel.v` | `src/mesh.rs` (boundary, `keep_cells`, `extract_surface_mesh`), face tables of `src/connectivity.rs` | `BTreeMap`s as sorted association lists; a cell is an index list, its type a table of local face indices. `Tet20` has no faces in the code, so a `Tet20` mesh has no boundary |
| `ElementModel.v` | basis functions, gradients, reference nodes, geometry maps, Jacobians and element conversions of `src/element/*.rs` | exact reals; a point is its coordinate function, so one definition serves all geometry dimensions (`Tri3d2`/`Tri3d3`, `Segment2d1`/`Segment2d2`); `diameter` and closest points are separate |
| `ConvertModel.v` | `refine_mesh`, `refine_uniformly(_repeat)` (`src/mesh/refinement*.rs`); conversions Tri3→Tri6, Quad4→Quad9, Tet4→Tet10, Hex8→Hex20/Hex27 (`src/mesh_convert.rs`) | exact reals; hash maps are entry lists with an arbitrary traversal order; `NestedVec` is a list of lists (justified by C06–C08); indices unbounded |
| `ProcModel.v` | `create_rectangular_uniform_quad_mesh_2d`, `create_rectangular_uniform_hex_mesh`, `create_rectangular_uniform_tet_mesh` (`src/mesh/procedural.rs`) | exact reals; indices unbounded; the coordinate increments that may wrap below zero are the out-of-range branch of the model; voxelisation is in `VoxelModel.v` |
| `TableModel.v` | `AggregateElementAssembler` (`src/assembly/local.rs`), `Workspace` (`src/workspace.rs`), `General`/`Uniform`/`CompactQuadratureTable` (`src/assembly/local/quadrature_table.rs`) | the per-element methods of an assembler are one query function; `binary_search` is a parameter with the documented contract, plus a transcription of the current library algorithm; workspace values live in one type and are tagged with their type id; `NestedVec` is a list of lists |
| `InterpModel.v` | `FixedInterpolator`: construction from compressed arrays and from a space, interpolation of values and gradients (`src/space/fixed_interpolator.rs`) | exact reals; the space (closest element, basis, gradients, inverse Jacobian) is a record of functions; the parallel constructor only precomputes the closest elements and is not modelled separately |
| `CgModel.v` | `ConjugateGradient::solve_with_guess`, `RelativeResidualCriterion` (`fenris-sparse/src/cg.rs`) | exact reals instead of floating point (so no NaN); vectors are functions on indices of which the first `n` count; operator, preconditioner and criterion are arbitrary functions; a loop without a limit is run on fuel; `CgStoppingCriterion::reset`, which the solver never calls, is not modelled |
| `OperatorModel.v` | `LinearOperator` for `CsrMatrix`, `IdentityOperator` (`fenris-sparse/src/cg.rs:43-63`) | exact reals; `spmm_csr_dense` (nalgebra-sparse) is modelled as the row sums it computes |
| `ElementSpaceModel.v` | meshes of every element type as spaces (`src/space/space_impl.rs:17-141`, `ElementConnectivity::element` of all connectivities) | geometry dimension = reference dimension; index out of range is `None`; slices of wrong length not modelled |
| `OptModel.v` | `newton`, `newton_line_search`, `NoLineSearch`, `BacktrackingLineSearch` (`fenris-optimize/src/newton.rs`); `approximate_gradient_fd`, `approximate_jacobian_fd`, `approximate_jacobian` (`calculus.rs`) | exact reals (with floating point a NaN residual also ends the loop with Ok); the function and the Jacobian solver are arbitrary pure functions; for Newton the function overwrites its output, for Jacobians the output buffer is explicit; unlimited loops on fuel; logging omitted |
| `AabbModel.v` | `AxisAlignedBoundingBox` (`fenris-geometry/src/lib.rs`), `slices_are_equal_shift_invariant`, `index_set_nth_power_iter`, `compute_orthonormal_vectors_3d` (`fenris-geometry/src/util.rs`) | exact reals; points are functions of which the first D coordinates count, any D; `copysign(1, -0.0)` does not exist over the reals |
| `GeomModel.v` | `LineSegment`, `Line` (`primitives/line.rs`), `HalfSpace` in the plane, `ConvexPolygon` (`polytope.rs`), `SimplePolygon2d` areas, triangulations, edges, `intersects_segment`, `closest_edge` (`polygon.rs`), `Quad2d`, `Triangle2d` area and signed distance (all in `fenris-geometry/src`) | exact reals; normalising the zero vector gives zero instead of NaN; `T::max_value()` is infinite; `expect`/`unimplemented!` are `None`; debug assertions are theorems |
| `PolyModel.v` | `PolyMesh`: construction, face-cell connectivity, `dedup_faces`, `find_boundary_faces`, `concatenate`, `split_edges(_n_times)`, `triangulate`, `keep_cells`, `intersect_half_space` (`fenris-geometry/src/polymesh.rs`); `Mesh` to `PolyMesh`, `PolyMesh` to `Tet4Mesh`, `HexMesh` to `Tet4Mesh` (`src/mesh_convert.rs`) | nested vectors are lists of lists (justified by C06–C08); hash maps are association lists, only looked up; points are of any type, midpoint, half space and cut point are function arguments; a panic is `None` |
| `SolidModel.v` | `ConvexPolygon3d` (area vector, normal, plane, closest point), `ConvexPolyhedron` (signed distance, containment), `compute_polyhedron_volume_from_faces` (`fenris-geometry/src/lib.rs`); faces of `Tetrahedron` and `Hexahedron`, distance to a tetrahedron, solid angles and winding numbers (`fenris-geometry/src/primitives`) | exact reals; polygons are lists of vertices and polyhedra lists of faces; normalising the zero vector gives zero instead of NaN, which no theorem uses |
| `SolidMeshModel.v` | `PolyMesh3d::{intersect_half_space, intersect_convex_polyhedron, compute_volume, translate}` with real coordinates; `create_simple_stupid_sphere` (`src/mesh/procedural.rs`) | exact reals |
| `MaterialModel.v` | `LinearElasticMaterial`, `StVKMaterial`, `NeoHookeanMaterial`, `LameParameters` (`fenris-solid/src/materials.rs`), `log_det_F` (`logdet.rs`), `compute_batch_contraction`, `MaterialEllipticOperator` (`lib.rs`) | exact reals; matrices are functions of row and column; `determinant`, `try_inverse` by explicit formulas in dimensions 1 to 3; infinite energies, NaN matrices and the `todo!` panic are `None` |
| `EllipticModel.v` | `compute_volume_u_grad`, `assemble_element_elliptic_{energy,vector,matrix}` (`src/assembly/local/elliptic.rs`), `assemble_element_mass_matrix` (`mass.rs`), `assemble_element_source_vector` (`source.rs`), default `accumulate_contractions_into` (`operators.rs`), `LaplaceOperator`, `clone_upper_to_lower` (`src/util.rs`), `GravitySource` | exact reals; a finite element is a record of functions; matrices are functions of row and column, output views come with their sizes; buffers that are overwritten are represented by their length only |
| `GlobalModel.v` | `ElementEllipticAssembler`, `ElementMassAssembler`, `ElementSourceAssembler` (`src/assembly/local/{elliptic,mass,source}.rs`), `BasisFunctionBuffer`, `QuadratureBuffer` (`src/assembly/buffers.rs`), default `populate_element_quadrature_and_data` of the tables | exact reals; every element finds an arbitrary thread-local workspace; basis values and gradients, which are overwritten, are represented by their number; element matrices are lists of rows |
| `IntegrateModel.v` | `src/integrate.rs` (volume form, integrands, element and mesh integrals), `src/error.rs`, `src/util.rs:688-782`, `src/assembly/buffers.rs:182-190` | exact reals; the integrand is one of the closures the traits accept; closures for u and its gradient are evaluated on demand (`None` = would panic); a workspace is arbitrary for every element |
| `ClosestModel.v` | `src/element/triangle.rs:444-603`, `src/element/tetrahedron.rs:571-670`, `src/space/space_impl.rs:155-185`, `src/space/spatially_indexed.rs:86-177, 291-330` | exact reals, tolerance is an argument; conversions to f64 are the identity; the R-tree is the list of its entries and its iterator an argument; `None` = panic |
| `PointInterpModel.v`, `MeshSpaceModel.v` | `src/space/interpolate.rs`, `src/assembly/buffers.rs:12-60, 223-347`, `src/space/space_impl.rs:20-141`, `src/space/spatially_indexed.rs:333-366` | exact reals; the search is an argument (for meshes it is the one of `ClosestModel`); stale values and gradients of the buffer are functions, kept unless updated; the workspace is handed from point to point |
| `InverseModel.v` | `src/element.rs:303-458`, `diameter` in `src/element/*.rs` | exact reals; nalgebra's pivoted LU is the inverse matrix, failing for determinant 0; the unlimited loop of the projection has fuel; debug messages are omitted |
| `QuadratureModel.v` | `gauss` and `LegendreRecurrence` (`fenris-quadrature/src/univariate.rs`), tensor rules (`tensor.rs`), `src/quadrature/subdivide.rs`, `integrate` (`fenris-quadrature/src/lib.rs`, `src/quadrature.rs`) | exact reals; the root search of `gauss` is an argument; conversions between scalar types are the identity; tabulated rules (`polyquad`, Gauss-Lobatto) are left out |
| `CanonicalModel.v` | `src/quadrature/canonical.rs` | the choice of rule for each element type (mass and stiffness); tabulated rules for triangles and tetrahedra are arguments |
| `PolyquadModel.v`, `PolyquadData.v` | `polyquad-parse/src/lib.rs`, `fenris-quadrature/build.rs`, `fenris-quadrature/src/polyquad.rs`, `src/quadrature/total_order.rs`, `fenris-quadrature/rules/polyquad/expanded` | text format, directory listing, sorting, selection; `str::parse::<f64>` is correct rounding of plain decimals (mantissa and exponent, no exponent notation); generated code is modelled by what it computes; files of low strength are verbatim |
| `LobattoModel.v`, `LobattoData.v` | `fenris-quadrature/src/univariate.rs:119-134`, `fenris-quadrature/src/codegen/gauss_lobatto_rules.rs` | all literals, as mantissa and decimals, rounded to doubles; `unwrap` of an empty list is a panic |
| `IoModel.v` | `src/io/msh.rs` (after parsing), `src/io/vtk.rs` (before writing) | file contents are the values exchanged with mshio and vtkio; arithmetic overflow of `tag - 1` panics or wraps, by a parameter; attribute data have the type of the coordinates; of `try_export` only title and version |
| `SdfModel.v` | `fenris-geometry/src/sdf.rs` | the implementors of the trait are one tree type; real numbers; a zero vector divided by its norm is the outcome `NotANumber` |
| `VoxelModel.v` | `src/mesh/procedural.rs` 15-44, 96-209, `src/mesh.rs` 136-142, 255-293 | real numbers; counts of cells unbounded; a gradient that is not a number would be a panic (shown not to occur) |
| `Tet20Model.v` | `src/mesh_convert.rs` 454-470, 658-775, `src/connectivity.rs` 914-919 | exact reals; the sort is an insertion sort; `binary_search` is a parameter with a contract |
| `ApdModel.v` | `src/util.rs` 171-245 | real numbers; `T::max_value()` is a parameter; nalgebra's quaternion product and rotation matrix are transcribed |
| `SvdModel.v` | `src/util.rs` 125-154, 247-261, 409-424, 443-479 | real numbers; the results of nalgebra's `svd` and `symmetric_eigenvalues` are arguments; determinants by expansion |
| `LayoutModel.v` | `src/util.rs` 54-112, 266-297, 427-441; `util/src/lib.rs` 38-98; `src/quadrature.rs` 45-101, 159-176, 265-316; `fenris-quadrature/src/lib.rs` 124-127 | a view is an offset, a shape and strides into a list; reading outside is `None`; conversion of scalars is a parameter |
| `PrimModel.v` | `fenris-geometry/src/primitives/half_space.rs` 33-83, `plane.rs` 26-31, `triangle.rs` 47-177, `predicates.rs` 4-9 | real numbers; normalising the zero vector gives zero instead of NaN (the comparisons have the same results) |
| `FloatModel.v` | the scalar type `f64` and its addition and multiplication | IEEE 754 binary64, round to nearest even, as defined by Flocq; NaN payloads are not represented; used with the generic assembly and quadrature models |
| `AdapterModel.v` | `src/assembly/local.rs` 37-148 (default methods, constructors of adapters), 283-519; 151-281 as an assembler | a transformation is a function from the contents of the view to an outcome; delegated methods are kept record fields; panics of the aggregate's dispatch inside connectivity callbacks become empty lists (never reached, C32) |

Hazards seen while reading that are outside the models: `BlockMut`-style accesses are `Copy` (aliasing of the
returned reference is left to the caller); the thread-local `RefCell::borrow_mut` in the parallel assemblers panics if an
element callback itself runs rayon tasks that steal another assembly task; a solution dimension of 0 panics in the block
adapter.
