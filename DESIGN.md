# Formal model of hpgem in Rocq: design

## Layout

For each area `X` of the code there are four kinds of file in `rocq/theories/`:

* `X_model.v` – Gallina definitions that follow the C++ functions; each definition cites file and lines in `/repo`.
  No proofs.
* `X_spec.v` – small, independent vocabulary used in the statements (when the standard library is not enough).
* `X_proofs.v` – lemmas.
* `X_theorems.v` – only the property theorems, each closed by `exact`, with `Print Assumptions` beneath, and `Example`s
  that show that the hypotheses are met by concrete non-trivial cases.

Conventions: `std::size_t` is `nat`/`N` without wrap-around unless the property is about wrap-around; `double` is the
real (or rational) number it denotes, i.e. rounding is not modelled; an assertion, a `logger(FATAL|ERROR)` or undefined
behaviour is an explicit `None`/error outcome, never a default value, unless the comment says otherwise.

## Plan per property

| id | model | statement and proof technique |
|----|-------|------------------------------|
| C01 | GlobalIndexing: counting pass per process, offsets per (kind, id, unknown), the three layouts, Allgather + partial sums | the list of all assigned indices is a permutation of `seq 0 N`; induction over elements and processes (prefix sums) |
| C02 | block parameters, getProcessorLocalIndex, globalToProcessorLocalIndex | local index bijection and inverse, from the block structure |
| C03 | getGlobalIndices(element/face) | length, NoDup, sharing; from C01 |
| C04 | same | order statements from the prefix sums |
| C05 | message contents, two rounds, delivery in any order | order independence of map insertion; completeness by invariant |
| C06 | ElementLocalIndexing state machine | invariant over reinit histories |
| C07 | FaceLocalIndexing with 64-bit wrap of the sentinel | partition theorem; the sentinel on the right side is refuted |
| C08 | SparsityEstimator with interval sets; the index lists that GlobalMatrix::assemble passes to PETSc | every set of intervals represents the set of coupled columns, rows are equal to its cardinality; assembly adds to an entry iff the pair is coupled; the check of the unknowns refuted on small meshes |
| C09 | TreeEntry/TreeIterator/LevelTree as zippers over forests | visited list = specification list, induction over forest |
| C10 | same | refuted for the stated general form; proved for forests where the code's `end()` is right |
| C11 | same | list equality with recursive pre/post-order, induction |
| C12 | Mesh::addElement on the tree model | equality of positions |
| C13 | counter state machine | invariant over call histories |
| C14 | Submesh::processPullRequests, all ranks | set equality from sorted list search |
| C15 | ElementData write/read | state machine, frame properties |
| C16 | FaceMatrix blocks | round trip |
| C17 | Face index conversion | bijection for discontinuous bases, refuted for conforming ones |
| C18 | ElementBasisFunctions | bijection, frame over histories |
| C19 | LazyCached | refinement to the pure function over histories |
| C20 | MiddleSizeMatrix, SmallMatrix, Table2D storage | index arithmetic |
| C21, C22 | determinant, wedge over R | `ring` against Leibniz/cofactor specification |
| C23–C26 | reference geometries, mappings, FaceGeometry over R | finite case analysis over orientations, `ring`/`lra` over points |
| C27–C29 | reference-to-physical maps over R | `ring`, derivatives via `Coq.Reals` |
| C30 | Butcher tableaux over Q | rooted-tree order conditions, c = row sums |
| C31 | computeOneTimeStep over an arbitrary module | induction over stages |
| C32 | getRule | list search |
| C33 | helperFunctions over R | induction on the degree |
| C34, C35 | SparseUnionFind, groupMerges | forest invariant with ranks, equivalence closure |
| C36 | ElementReorder | permutation round trip; `checkOrder` refuted |
| C37 | toBase64 | decode . encode = id, induction by 3 |
| C38 | the height limiters (PositiveLayer, Squeeze, AverageValues, Bidispersed), slope limiters (TvbLimiter1D, TvbLimiterWithDetector1D) and the outer loop of SavageHutter, in one dimension, over R | means as integrals (Newton) via exactness of the element rule; projection = identity on the span (positive weights); per-limiter case analysis; TVB steps of two elements commute because they keep the means |
| C39 | quadrature tables over Q | moments up to the order, linearity for all polynomials |
| C40 | basis functions over R | derivative theorems |
| C41 | PhysicalElement: all getters and setters, caches, result matrix, changes of elements | invariant of the caches by induction over the history, loops of fill and getSolution by simulation with loops without caches |
| C42 | MergePlan | map invariants, union-find components |
| C43, C44 | computeRightHandSide over an arbitrary ring | loop invariants over elements and faces |
| C45 | ReferenceCurvilinear*, ReferenceGeometryFactory for every order | index arithmetic of the nodes of order o, induction/`nia`; orientation by the corners |
| C46 | FaceGeometry::computeDiameter | invariant of the double loop |
| C47 | sets of conforming basis functions of all shapes | classification of the members, evaluation on each face |
| C48 | createDGBasisFunctionSet*, conforming sets, monomials | sums over the loops by induction on the order |
| C49 | useDefaultConformingBasisFunctions on the two sides of a face | classification of the selected sets per face and orientation, evaluation |
| C50 | discontinuous sets as functions on R | restriction to nodes and sides, degrees of Lobatto polynomials |
| C51 | twelve tables of GaussQuadratureRule, listeners of BasisFunctionSet | run of the program equals a specification without tables, by induction over the history |
| C52 | preprocessor Mesh, MeshEntity, Element as lists with indices; all modifying operations with an error outcome | invariant by induction over the operations |
| C53 | Mesh::addElement with the shape tables of the preprocessor | invariant: per dimension entities and node sets correspond one to one |
| C54 | HpgemAPIBase::synchronize on all processes as a transition system | invariant: sends and receives in flight are a permutation of each other |
| C39 | all tables of quadrature rules (generated from the text of the code), the registration and getRule | integrals as iterated Newton integrals; linearity reduces to monomials, whose integrals have closed forms; verified fixed-point interval arithmetic evaluates all moments by vm_compute; product and symmetric rules reduce to one-dimensional and sorted moments |
| C55 | the vector valued functions of Nedelec and of Ainsworth and Coyle over the reals, with their constructors | derivatives by the rules of calculus; traces by barycentric coordinates; independence by separating functions by edge, face and leading part; degree along every line |
| C56 | the three conforming transformations of values and derivatives, with the mappings of C27 and C28 | chain rule for differentiable functions along coordinate lines; second derivatives of all mappings exist and are symmetric; polynomial identities for determinants and adjugates |
| C57 | PhysicalFace: all setters and getters, on top of two physical elements of C41 | invariant of the caches by induction over the history; each getter is simulated by a computation from the settings, which equals the specification |
| C58 | updateLeftRightTransform and computeDirectionVectors over the reals, with the images of the corners of the reference face as input | the Gram matrices of the two sets of directions agree, so the solution of the linear system is orthogonal with determinant 1; uniqueness from the invertible directions; the chain rule for rigid motions gives the derivatives of carried functions |
| C59 | the constructors of the VTK elements as lists of assignments to an array | the assignments reach every index once (counting), so the array holds what was assigned; each lattice point is assigned to VTK's index (case distinction); the loop of VTK over the layers is followed by induction on the layer; completeness by subtracting the smallest coordinate |
| C60 | the two loops of the writer over elements and points with the arrays they fill, the padding, the announced arrays, the names of the files, and the base 64 text of an array | invariant of the nested loops: the arrays are the data of the points met so far followed by zeros; reading back by a small reader that follows the rules of VTK; base 64 by C37 |
| C61 | The calls to VecSetValues of all processes as pairs of index and value that PETSc applies in any order; the loops of assemble, constructFromTimeIntegrationVector and writeTimeIntegrationVector over the index lists of C03 | index function from C01-C03; permutation invariance of sums; loop invariants for the copies; round trips |
| C62 | the values that every process adds to the matrix, with an indexing for the rows and one for the columns; the collection of boundary entries | entries of the sum as a list of contributions that is stable under permutation; the loops append the indices of lists of degrees of freedom; tables of reference elements by cases |
| C63 | the mesh file as a list of numbers, words and line ends, its writer and its reader | closed forms of the writer and of each section of the reader, by induction over the loops; then the closed form of the local mesh is compared with the specification |
| C64 | ElementIntegral and FaceIntegral on top of the physical element and face; integrands are programs that ask and get answers | the relation between the object and its settings of C57/C58 is kept by the loop over the points; induction over the loop, the program and the history |
| C65 | the registry of options, the loop over argv, the conversion of integers, parsePoint | the words and the options are compared with a grammar by induction over the loop and over the derivation; both directions |
| C66 | the flux functions and the face and element integrands of the Euler, compressible Navier-Stokes and SavageHutter applications, over the real numbers | the Roe flux is brought to a closed form once for all dimensions; consistency, sign change and upwinding are algebra on it; the integrands by induction over the basis functions |
| C67 | the whole Gmsh reader on the list of characters of the file, with line ends, words, quoted names, sections and the conversion at the end | a grammar of files in the specification; each section keeps the relation between the reader and the description so far; induction over the derivation of the file |
| C68 | the text of a structured file, the walks over nodes and cells, the periodic copies, the turned tables of triangles | the walks visit mixed radix numbers in order; a copy of a node is found by the bits of the wrapped directions; turns have the parity of the cell; the four tables fill the cell and fit each other |
| C69 | a file as a list of bytes; the reader of records with and without assertions and with the contents of its uninitialised variables; groups on several lines, coordinates, elements, periodic connections, zones | reading is the inverse of writing, by induction over the lines of a group; the table of corners is compared with places; the names of the zones by the range of positions that each type can write |
| C70 | all lists of eigenpairs of a program, with the arrays of vectors that they allocate and free | invariant over the history of calls: every array belongs to one list, and the ordering is a list of valid places of pairs |
| C71 | the loops of the comparisons, over numbers with NaN added | by induction over the vectors, from the order of the numbers; the complex order of MiddleSizeVector by the list of real parts followed by that of imaginary parts |
| C72 | the calls on a path with their assertions, the loop of the driver, in exact arithmetic | the index is divided by the number of steps; on one line the interpolation is linear; the sum of the steps by induction |
| C73 | the loops over lines, commas and pieces, with open functions for regular expressions and numbers | every text is uniquely a list of pieces with separators between them; reading is compared with that list by induction |
| C74 | the shared storage, the blocks, the values that are inserted one after the other, the shifts of a face per processor | the values written are exactly the shifted entries; the matrix then has the last of them; phases are never 0, so the same places are written for every wave vector |
| C75 | The elements of each processor with zone, owner and nodes; the arrays of minima and maxima, their reduction; the array of numbers that are descriptions when negative and layers otherwise | invariant over nodes, elements and processors (an entry summarises a set of coordinates); invariant over elements (an entry is unchanged before the first element of its zone and the number of its layer after) |
| C76 | The two loops of isHermitian with their reads in a list by columns; numbers are reals or NaN | induction over both loops, and the symmetry of the distance |
| C77 | parsePath as a loop over positions in the text, with the model of parsePoint | induction over the rest of the text, both ways, to a grammar of paths |
| C78 | Faces with owner and zones; the map of facets as an association list; the array of presence, its reduction and the numbering | facets as a concatenation over faces; an entry of the array is set iff a facet has that linear index; sorted lists with the same elements are equal |
| C79 | The two kinds of tensors with exact complex numbers, vectors as lists | algebra entry by entry, induction over vectors for one number |

## Trusted base

* The kernel of Coq 8.16.1 (all files are compiled by `coqc` and rechecked by `coqchk`).
* The axioms that `Print Assumptions` lists, see the last section.  They all come from Coq's standard library and only
  from its real numbers: `ClassicalDedekindReals.sig_forall_dec`, `ClassicalDedekindReals.sig_not_dec` and
  `FunctionalExtensionality.functional_extensionality_dep`, and `Classical_Prop.classic`, which its Riemann integrals use.  All other theorems are closed under the global context.
  There are no axioms, parameters, functors or module types in this development.
* The correspondence between the C++ sources and the `*_model.v` files, which was established by reading.  Each
  definition cites file and lines.  The code was neither compiled nor run.

## What is modelled, and how

| files in `/repo` | model | deliberately left out |
|---|---|---|
| kernel/Output/base64 | Base64 | – |
| applications/Preprocessor/lib/ElementReorder | Reorder | names of the orders |
| kernel/Base/GlobalUniqueIndex | UniqueIndex | – |
| kernel/Base/LazyCached | Lazy | the computation is an arbitrary function of the rest of the program |
| kernel/Utilities/ElementLocalIndexing, FaceLocalIndexing | LocalIndexing | wrap-around of sums inside one element |
| kernel/Base/ElementBasisFunctions, DoF numbering of Face.cpp and Element.cpp | BasisPlaces | the functions themselves: a set is its size; the default `unknown = LEGACY_BEHAVIOUR` |
| MiddleSizeMatrix, SmallMatrix (storage, entry-wise operations, products), Table2D | Matrix | LAPACK solvers, eigenvalues, pseudo-inverse; BLAS by its documented contract; sizes above `int` |
| SmallMatrix::determinant, Jacobian::determinant, computeWedgeStuffVector | Determinant | – |
| kernel/Base/FaceMatrix, FaceData | FaceMatrix | user data |
| kernel/Base/ElementData | ElementData | zones, user data |
| applications/Preprocessor/lib/utils/SparseUnionFind, MergePlan::groupMerges | UnionFind | – |
| kernel/Base/TimeIntegration/* | Tableau | rounding of the coefficients |
| HpgemAPISimplified time stepping and right-hand side | TimeStep | output, MPI synchronisation (one process), virtual functions are parameters |
| kernel/Utilities/GlobalIndexing | GlobalIndexing, IndexExchange | overflow of `int`; MPI by an arbitrary-interleaving model of its send/receive/barrier calls |
| kernel/Base/LevelTree, TreeEntry, TreeIterator, Mesh::addElement positions | LevelTree | pointers: an entry is its path |
| kernel/Geometry/Reference*.cpp, Mappings/MappingToRef*, MappingRefLineToTetrahedron | RefGeometry | rounding; the quadrature rules attached to a geometry |
| kernel/Geometry/ReferenceCurvilinear*, ReferenceGeometryFactory | Curvilinear | rounding (bounds on the order appear where the search tolerance matters) |
| kernel/Geometry/Mappings/MappingToPhys* | PhysMapping | rounding; `dgesv` is the exact solution by Cramer's rule (for a singular matrix the right-hand side is left as it is); warnings |
| kernel/Geometry/FaceGeometry, ConcatenatedMapping, geometric part of the constructor of Face | FaceGeometry | face types, boundary faces on the right side |
| kernel/FE/helperFunctions | Legendre | rounding |
| kernel/FE/BasisFunctions*H1Conforming*, BasisFunctionsMonomials, BasisFunctionsPiecewiseConstant | BasisFunctions | rounding; vector-valued functions |
| kernel/FE: createDG/Interior/Vertex/Edge/FaceBasisFunctionSet*, OrientedBasisFunctionSet, selection in MeshManipulator::useDefault*BasisFunctions, Edge orientation | BasisSets | ownership of the sets |
| BasisSizes | spec only: conforming_basis collects the parts that useDefaultConformingBasisFunctions gives to one element (interior, faces, edges, nodes) | sizes of BasisSets_model sets |
| kernel/Base/MeshManipulator_Impl.h: choice of the set for each side of a face and each edge, on top of BasisSets and FaceGeometry | Conformity, ConformitySides | creation of the lists of elements around edges and nodes |
| kernel/Integration/QuadratureRules/GaussQuadratureRule.h and .cpp, kernel/FE/BasisFunctionSet.h and .cpp | QuadCache | tables keyed by address and face map, listeners; addresses are chosen by the history; values are abstract |
| kernel/Base/PhysicalElement.h and _Impl.h, CoordinateTransformation.h (interface) | PhysicalElement | values, points, Jacobians, rules and maps are abstract; getters of vector solutions, curl and div of solutions only report errors and are left out |
| applications/Preprocessor/lib/mesh: Mesh.h, MeshImpl/*.h, elementShape.h, elementShape_impl.h, ElementShapes.h | PreMesh, PreShapes | pointers to the mesh and template dimensions become one record of lists; coordinates carry only their node, not the position; zones are left out |
| applications/Preprocessor/lib/MergePlan.h | MergePlan | template recursion over levels becomes recursion over the dimension; std::map and std::set as sorted lists |
| kernel/Base/Submesh.h, Submesh.cpp, part of MeshManipulator_Impl.h readMesh | Submesh | collective calls as one function on all processes; elements by their id; the file only as owner and shadow partitions of each element |
| kernel/Base/HpgemAPIBase_Impl.h synchronize, MpiContainer.h send, receive, sync | Sync | MPI messages as a nondeterministic transition system; vectors as a function of process and element |
| kernel/Integration/QuadratureRules/GaussQuadratureRulesFor*.cpp, AllGaussQuadratureRules.cpp 60-158 | Quadrature | decimals are exact rationals and sqrt is exact (no floating-point rounding); the registration order is the one in the constructor; caching of basis functions is in QuadCache |
| applications/SavageHutter/HelperFunctions.{h,cpp}, HeightLimiters/*, SlopeLimiters/*, SavageHutterBase_Impl.h:191-244 | Limiter | one dimension; doubles are reals; the linear solver is any function that solves the mass matrix systems; detectDiscontinuity arbitrary; no synchronisation |
| kernel/Utilities/SparsityEstimator.cpp/.h; GlobalMatrix.cpp assemble (index lists) | Sparsity | the mesh is the abstract adjacency structure of GlobalIndexing; std::set/std::map as lists; PETSc itself is not modelled; a face without a visible element is not in the list of faces |
| kernel/FE/BasisFunctions2DNedelec.cpp, BasisFunctions3DNedelec.cpp, BasisFunctions3DAinsworthCoyle.cpp | CurlBasis | real arithmetic; a switch that falls through to a logged error is None; the unbounded loop of order 0 in two dimensions is None |
| kernel/Base/CoordinateTransformation.h, CoordinateTransformationData.h, H1/HCurl/HDivConformingTransformation.h | Transformation | real numbers; IdentityTransformation left out (its functions do not override those of the base class: the data is not const) |
| (degrees of the functions of BasisSets) | BasisDegree | no new definitions of code |
| kernel/Base/PhysicalFace.h, PhysicalFace_Impl.h | PhysicalFace | result matrices and vectors, members that do not compile; the rotation is a parameter of the face (its computation depends on the face alone); the mesh does not change |
| PhysicalFace_Impl.h:1077-1187 | FaceRotation | exact arithmetic; the maps from the reference face to the physical elements are parameters; dgesv is Cramer's rule |
| VTKLagrangeCurve.cpp, VTKLagrangeQuadrilateral.cpp, VTKLagrangeHexahedron.cpp, VTKLagrangeTriangle.cpp, VTKLagrangeTetrahedron.cpp, VTKStandardElements.cpp | VTKElements | exact arithmetic; a constructor is the list of its assignments |
| VTKSpecificTimeWriter_Impl.h | VTKWriter (proofs also in VTKFields) | a DataArray is its name, number of components and numbers; tags are not modelled; uint32 counters wrap; little endian size header |
| kernel/Utilities/GlobalVector.cpp:116-466 | GlobalVector | the vector is the list of its entries on all processes; VecSetValues records pairs, assembly applies them in some order; scatter to a process gives exactly the entries with the requested indices; values in any type with a commutative addition (no rounding) |
| kernel/Utilities/GlobalMatrix.cpp (77-151, 291-368) | GlobalMatrix | MatSetValues and assembly by specification; mesh == nullptr left out; int indices unbounded |
| `applications/Preprocessor/lib/output_impl.h`, `kernel/Base/MeshManipulator_Impl.h` (readMesh and the functions it calls), `kernel/Base/MeshFileInformation.cpp` | MeshFile | numbers are read back as they were printed; a coordinate is any type with a strict total order (so no NaN, and 0.0 and -0.0 are not both used); names of zones are one word; a file is what one run of the writer gives; reference geometries are given by their faces and edges; the matching of face orientations is not here (C59) |
| `kernel/Integration/ElementIntegral{.h,_Impl.h}`, `FaceIntegral{.h,_Impl.h}` | Integral | numbers are abstract; integrands do not call setters; integratePair is the loop with pairs (the code asks the scale factor twice); result matrices of faces are left out; the ElementIntegrandBase/FaceIntegrandBase overloads are integrands |
| `kernel/Base/CommandLineOptions.{h,cpp}`, `CommandLineHelpers.h` | CommandLine | std::maps are association lists; doubles are converted by an abstract function; MPI and PETSc start-up, the text of the help and crashOnWarn are left out |
| `applications/Euler/Euler_Impl.h`, `applications/NavierStokes/CompressibleNavierStokes/Inviscid.cpp`, `applications/SavageHutter/SavageHutter{1D,2D}Base.cpp`, `SavageHutter1DBasic.cpp`, `SavageHutter2DBasic.cpp`, `SavageHutter1DWidthAveraged.cpp`, `HelperFunctions.h` | Flux | doubles are real numbers (division by zero and roots of negative numbers are errors); sources, viscous terms and inflow/outflow conditions are left out |
| `applications/Preprocessor/lib/gmsh.{h,cpp}` | Gmsh, GmshSections, GmshFile, GmshOrder | the file is a list of characters; a number is the whole word up to the next white space; conversion, rounding and comparison of doubles are parameters; the fail bit is an error; numbers of warnings are left out |
| applications/Preprocessor/lib/hpgem.cpp (StructuredReader, HpgemReader), customIterator.h (Range) | Structured | doubles are reals, no overflow of size_t; the vectors with one entry per direction are one list of records; words and numbers as in Gmsh; files of the type mesh are not modelled |
| applications/Preprocessor/lib/FortranUnformattedFile.cpp, centaur.cpp (readGroupSize, readGroup, skipGroup, readCoordinates, readElements, reorderElementCoords, readPeriodicNodeConnections, readZoneInfo) | Centaur | bytes are numbers, machines are little endian; a double is its eight bytes; a map of merges is the list of its assignments; the rows of the zones are given as numbers, not as bytes; the header, boundary groups and higher order nodes are not modelled, the file type is a parameter |
| kernel/Utilities/Eigenpairs.{h,cpp} | Eigenpairs | a vector is its content; calls of PETSc and SLEPc do not fail; the solver is the list of its pairs |
| kernel/LinearAlgebra/SmallVector.h:115-125, 268-287, MiddleSizeVector.cpp:170-191 | VectorOrder | doubles are an ordered type with NaN added, and the two zeros are one number |
| applications/DG-Max/Utils/KSpacePath.{h,cpp}, Programs/DGMaxEigen.cpp:153-163 | KSpacePath | exact arithmetic; numbers that do not exceed std::size_t |
| applications/DG-Max/DGMaxProgramUtils.cpp:128-235, 305-356, Utils/ZoneStructureDescription.cpp, kernel/Base/Zone.cpp:46-53 | Materials | std::regex, stod and strtol are left open |
| applications/DG-Max/Utils/KPhaseShift.{h,cpp}, MatrixBlocks.{h,cpp}, FaceKPhaseShiftBuilder.cpp | PhaseShift | exact arithmetic; calls of PETSc do not fail; the matrix is one function, in which each processor can write its rows; the faces that are not marked as periodic are left out |
| Layers | DGMaxProgramUtils.cpp:237-296, 405-452 | coordinates are reals, MPI is its result, PETSc and createPML are left out |
| Hermitian | kernel/LinearAlgebra/MiddleSizeMatrix.cpp:969-984, MiddleSizeMatrix.h:122-132 | reals with NaN, no rounding |
| PathText | DGMaxProgramUtils.cpp:88-120 | std::stod and std::stoul are parameters; isspace of the C locale |
| Facets | applications/DG-Max/Utils/FluxFacets.cpp:42-133 | -1 is None, MPI is its result, int does not overflow |
| FacetFlux | applications/DG-Max/Utils/FluxFacets.cpp:135-170 | computeEnergyFlux is a parameter, real numbers, MPI is its result |
| Tensor | applications/DG-Max/MaterialTensor.h:47-175 | exact arithmetic, the default constructor is left out |

Remarks on single models:

* `double` is R, Qc or an arbitrary ring.  Statements about comparisons with tolerances (Newton's iteration, findPoint)
  use the exact tolerance of the code.
* `pyramid_denominator`: the pyramid mapping divides by `1 - z` plus a guard in the apex; the guard is part of the
  model, so C27 holds in the apex as well, and C28 excludes a neighbourhood of it.
* C05: the state of all processes and the messages in flight; every interleaving, buffered or synchronous sends.
* LevelTree: loops run with fuel, the theorems state that enough fuel exists.

## Claims that are false for the code

The theorems with the suffix `_refuted` contain a concrete execution of the model that violates the claim:

| theorem | what happens |
|---|---|
| C01_repeated_unknown_refuted | an unknown that is listed twice leaves an index without degree of freedom |
| C01_self_neighbour_refuted | so does an element that is its own neighbour across a face |
| C06_empty_unknown_list_with_asserts_refuted | with assertions the check for duplicates reads outside of an empty list of unknowns |
| C07_right_sentinel_refuted | the documented sentinel for unknowns that are not included is not returned on the right side of a face |
| C09_add_children_at_level_refuted | giving a level to addChildren for a parent with children: a child is not visited any more |
| C09_max_level_refuted | maxLevel() keeps a level that no entry is on |
| C10_misses_entries_refuted | iteration over all levels misses entries if the last entry is not on the last level |
| C11_deep_entries_refuted | an entry that occupies two levels: nothing is visited in pre-order |
| C12_recorded_position_refuted | with the traversal set to level 1 the recorded place is that of another entry |
| C12_second_refinement_refuted | refining an element with sub-elements reads past the end of the list of new sub-elements |
| C15_change_count_refuted | changing the number of basis functions of an unknown moves the coefficients of the unknowns after it |
| C16_dense_blocks_refuted | blocks of a dense matrix for elements with different numbers of degrees of freedom |
| C17_conforming_numbering_refuted | with a conforming basis two functions of a face get the same number |
| C20_product_no_rows_refuted | products without rows call BLAS with an illegal leading dimension |
| C23_square_rotation_refuted, C26_square_refuted | for faces rotated by a quarter the inverse mapping is selected, so the two sides of such a face see different physical points |
| C23_cube_reflection_refuted | reflections of cubes (faces in four dimensions) are not told apart |
| C29_newton_refuted | a convex quadrilateral and a point outside of it that is located in its centre |
| C29_quadratic_refuted | a valid quadratic triangle and a point for which the iteration never ends |
| C30_stage_times_refuted | three tableaux are of first order only for right-hand sides that depend on time |
| C36_check_rejects_non_permutations_refuted | orders with repeated nodes are accepted |
| C36_gmsh_linear_tetrahedron_refuted | no order is registered for 4-node tetrahedra of gmsh files |
| C33_lobatto_refuted | LobattoPolynomial of degree 5 lacks a power of x; from degree 10 on the normalisation is missing |
| C40_defined_refuted | basis functions with a Lobatto polynomial of degree 4 or more have no derivative: the program stops |
| C47_prism_refuted | the functions of the quadrilateral faces of prisms are those of triangles: with assertions the program stops, without they do not vanish on other faces |
| C48_prism_refuted | createDGBasisFunctionSet3DH1ConformingPrism, order 3 | 41 functions for a space of dimension 40: the interior functions are listed with repeated and missing degrees |
| C49_faces_refuted | FaceBasisFunctionSet3DH1ConformingCube and face-to-face map index | for orientations that interchange the two directions the degrees (i, j) are not interchanged: face functions of order 3 differ between the two sides |
| C49_edges_refuted | edge functions of cubes and prisms | the parameter of an edge has the opposite sign in cubes: odd edge functions have opposite signs on a face between a cube and a prism |
| C49_periodic_refuted | Edge::addElement | the orientation is found from the indices of the coordinates, which differ between the sides of a periodic boundary |
| C50_refuted | LobattoPolynomial, degree 5 (kernel/FE/helperFunctions.cpp:49-89) | a missing factor x*x makes it a polynomial of degree 3, a combination of degrees 1 and 3: the discontinuous basis of every order from 7 on is linearly dependent |
| C41_changed_refuted | PhysicalElement::getSolution (kernel/Base/PhysicalElement_Impl.h:407-436) | the solution at the current point is not computed again when the coefficients of the element change |
| C41_solution_refuted | the same | basisFunction(i) of the first unknown is used for all unknowns |
| C41_uneven_refuted | PhysicalElement::basisFunction (58-86) | the assertion on equal numbers of functions is only reached when the values are not cached |
| C41_result_refuted | setPointReference, setElement (622-707) | the result matrix is cleared by a multiplication with 0, which keeps NaN and infinity |
| C42_refuted | MergePlan.h findLeftCandidates | two entities with the same image: the second overwrites the first in the map, which is then not merged |
| C52_remove_again_refuted | Mesh.h removeUnusedEntities | coordinates of removed nodes get node -1, which the next call uses as an index |
| C14_twice_refuted | Submesh.cpp processPullRequests, Submesh.h addPullElement | only requests of the same round are compared: an element that is already received is added again, and is then exchanged twice under the same tag |
| C39_refuted | GaussQuadratureRulesForTetrahedron.cpp T3_7_31, T3_9_53 | the rules selected for orders 7 and 9 on tetrahedra are not exact for these degrees: the error for x^7 is more than 4e-8 (3e-5 of the integral), that for x^9 more than 1e-8 |
| C38_positivity_refuted | PositiveLayerLimiter_Impl.h:73-80 | for order 2 the slope (sum of the end values) can be very negative: heights below -9 for an element with mean 1 |
| C38_squeeze_refuted | SqueezeLimiterWithLayer_Impl.h:77-79 | a thin element with uniform negative discharge: the squeeze factor is -1/0 and the coefficients become NaN |
| C38_minimum_point_refuted | SqueezeLimiterWithLayer_Impl.h:152 | getSolution(0, pRefL)(1) (discharge, left) instead of getSolution(0, pRefR)(0) |
| C38_bidispersed_refuted | BidispersedLimiter1D.cpp:90-108 | after squeezing, the height of the small particles can still exceed the total height |
| C08_check_misses_refuted | SparsityEstimator.cpp, check of isOnlyElementBased | the check is asked for row i of the table instead of the unknown of that row: a matrix with a subset of the unknowns gets rows that are too short |
| C08_spurious_error_refuted | same | the same confusion raises an error although all coupled unknowns are element based |
| C08_node_contact_refuted | same, distributedMesh | a process that touches others only in nodes counts as not distributed, the check is skipped and rows of conforming unknowns are too short |
| C55_curls_missing_refuted | BasisFunctions2DNedelec.cpp evalCurl | the curl uses the derivative of the scalar modulating function, which is not available from some order on (see C47): sets of order 7 and more have functions without a curl |
| C55_order_zero_refuted | createDGBasisFunctionSet2DNedelec, createDGBasisFunctionSet3DAinsworthCoyle | order 0 is not rejected: the loop on triangles counts down past zero, the set on tetrahedra has 6 functions for 3 constant fields |
| C55_independent_refuted | BasisFunctions2DNedelec.cpp createDGBasisFunctions2DNedelec | the edge functions are modulated by the discontinuous functions of order - 1 on a line, which are dependent from order 7 on (see C50) |
| C57_normal_unknown_refuted | PhysicalFace::basisFunctionNormal(i, unknown) (kernel/Base/PhysicalFace_Impl.h:144-165) | the loop calls basisFunction(j) without the unknown, so functions of unknown 0 are used |
| C57_sizes_refuted | PhysicalFace::setFace (848-886) | the numbers of functions are those of the first face that was set, also when a later face has others |
| C57_rule_refuted | PhysicalFace::setFace, setQuadraturePointIndex (842-932, 995-1007) | setFace keeps the maps to the elements of the face for which the rule was set |
| C57_solution_refuted | PhysicalFace::getSolutionDeriv(RIGHT) (586-597) | not rotated to the coordinates of the left element, unlike the basis functions |
| C57_point_first_refuted | PhysicalFace::setPointReference (797-824) | reads face_, which is not initialised before setFace |
| C58_reflection_refuted | PhysicalFace_Impl.h:1155-1160 | the assertion is meant to refuse improper rotations, but the normal vectors are computed from the directions, so that the determinant is always positive; sides glued by a reflection are turned by a rotation that puts the right element on top of the left one |
| C60_tensors_refuted | VTKSpecificTimeWriter_Impl.h:155-163, 231-239 | tensor arrays are announced with NumberOfComponents 3 but hold nine values for each point, so they cannot be read |
| C60_prisms_refuted | VTKSpecificTimeWriter_Impl.h:505-566 | from order 2 on there is no cell for prisms and pyramids, and a mesh that has one is refused |
| C60_names_refuted | VTKSpecificTimeWriter_Impl.h:166-175 | a scalar and a vector with the same name share one array |
| C60_binary_refuted | VTKSpecificTimeWriter_Impl.h:433-443 | the size of an array is kept in 32 bits; from 4 GiB on bytes are lost |
| C61_subset_refuted | GlobalVector.cpp:162-466 | with a selection of the unknowns, writing fails an assertion in getGlobalIndex and reading passes more values than indices to VecSetValues |
| C61_different_numbers_refuted | GlobalVector.cpp:448-454 | getNumberOfBasisFunctions() without argument asserts equal numbers for all unknowns |
| `C63_shadow_face_types_refuted` | `MeshManipulator_Impl.h` 1829-1843 | a face between two elements of another process is marked twice and ends as PERIODIC_SUBDOMAIN_BC although it is not periodic |
| `C63_repeated_node_refuted` | `output_impl.h` 159-165 | an element with the same node twice (one element in a periodic direction) is written with equal coordinates for both corners; the kernel cannot read the file |
| `C65_bad_numbers_refuted` | `CommandLineOptions.h` 152-172 | only eof() is checked after the conversion: an empty argument or a sign alone is 0, too large numbers are cut off, -1 is 2^64-1 for a std::size_t option, and char options accept no character |
| `C66_euler_wall_refuted` | `Euler_Impl.h` 549 | the flux at a solid wall is called with the states exchanged: the force on the wall is too small |
| `C66_inviscid_pair_refuted` | `Inviscid.cpp` 362-400 | the integrands of both sides are filled with the number of basis functions and the indices of the left element |
| `C66_shallow_line_faces_refuted` | `SavageHutter1DBase.cpp` 99-112 | the flux, already multiplied by the normal, is multiplied by it again: wrong sign on faces with normal -1 |
| `C66_lax_friedrichs_refuted` | `SavageHutter2DBase.cpp` 241-312 | the speed of the local Lax-Friedrichs flux is that along the axes; waves in the direction of the normal can be faster |
| `C67_prism_mirrored_refuted` | `gmsh.cpp` 327 | the order registered for prisms reverses their orientation |
| `C67_lower_names_refuted` | `gmsh.cpp` 497-500 | `physicalNames_[dimension_]` is out of range when only groups of lower dimensions have names |
| `C67_no_tags_refuted` | `gmsh.cpp` 360-363 | `no_tags - 1` wraps around for elements without tags |
| `C67_unclosed_refuted` | `gmsh.cpp` 534, 555 | `assert_always` is given a text instead of a condition: a section without end is accepted |
| `C67_reversed_refuted` | `gmsh.cpp` 267-271, 358 | negative numbers of groups are made positive for names but wrap around for elements |
| C68_periodic_odd_refuted | hpgem.cpp StructuredReader::getElements | tetrahedra at the two ends of a periodic direction with an odd number of cells do not match, so that the mesh is not conforming there |
| C68_bindings_refuted | hpgem.cpp StructuredReader::getProcessorBindings | there is one processor for every cell, fewer than elements in a triangular mesh |
| C69_release_refuted | FortranUnformattedFile.cpp readRawRecord | the marker of a record is read in the argument of a debug assertion, so a program built without assertions never reads it and returns something else than the record |
| C69_cut_refuted | FortranUnformattedFile.cpp readRawRecord | a file that ends before the last marker can be accepted, as the result of reading it is ignored and the variable is not initialised |
| C69_zones_refuted | centaur.cpp readZoneInfo | in a file with several types of elements, ends within a type are compared with positions among all elements: the last element of every type but the first has no zone |
| C69_default_zone_refuted | centaur.cpp readZoneInfo | in a two-dimensional file without zones the default zone is made but not applied |
| C70_reserve_refuted | Eigenpairs.cpp:79-88 reserve | space reserved after loading replaces the array: number and values of the pairs stay, the vectors have never been written |
| C71_sizes_refuted | MiddleSizeVector.cpp:170-191 operator< | vectors of different sizes: a vector is equivalent to all its continuations, which are not equivalent to each other |
| C71_nan_refuted | SmallVector.h:268-287 operator< | a vector with NaN is equivalent to all vectors |
| C72_change_refuted | KSpacePath.cpp:47-56 dkDidChange | a corner on a straight line is reported as a change of the step |
| C72_end_refuted | KSpacePath.cpp:18-45 k, dk | the assertion is index <= total instead of index < total, and a corner that does not exist is read |
| C72_no_steps_refuted | KSpacePath.cpp:23; DGMaxEigen.cpp:410-413 | zero steps are accepted and lead to a division by zero |
| C72_single_refuted | KSpacePath.cpp:70-76 singleStepPath | the path has only the given point, not the origin that the documentation promises |
| C73_empty_refuted | DGMaxProgramUtils.cpp:182-190 tryParseLong | the empty text is the number 0, which is vacuum |
| C73_file_name_refuted | DGMaxProgramUtils.cpp:201-205 | the name of a file with a comma in it is read as the description |
| C74_own_neighbour_refuted | KPhaseShift.cpp:63-71, MatrixBlocks.cpp:59-76 | for an element that is its own neighbour the second block replaces the first, and the matrix is not Hermitian |
| C74_two_faces_refuted | MatrixBlocks.cpp:73 INSERT_VALUES | the entries of an inner face between the same two elements are lost |
| C75_material_refuted, C75_unknown_zone_refuted | applyPMLs takes the material of the first element of a zone for all of them, and ignores a description of a zone that the mesh does not have |
| C76_nan_refuted | isHermitian accepts matrices of NaN, since it looks for differences that are too large |
| C77_steps_refuted | parsePath converts the number of steps from unsigned long to int without a check |
| C78_names_refuted | generateZoneOrdering gives the facet between zones a and b the name of the outside facet of a zone a--b |

For each of them the theorems without suffix or with the suffix `_partial` state what does hold.

## Testing the theorems against wrong programs

`seeded/LOG.jsonl` has one line per edit of the model that was tried in a scratch copy, with the theorems that stopped
compiling.  Edits that no theorem noticed led to stronger theorems (field `tightened`).

## Assumptions of each theorem (Print Assumptions)

### Closed under the global context

C37_base64_roundtrip, C37_base64_is_rfc4648, C36_reorder_roundtrip, C36_reorder_in_range, C36_permutations_accepted, C36_check_rejects_non_permutations_refuted, C36_gmsh_orders_roundtrip, C36_gmsh_linear_tetrahedron_refuted, C13_ids_consecutive, C13_ids_unique, C19_first_get_computes, C19_later_gets_cached, C19_value_is_current, C19_single_first_get, C19_single_later_gets, C06_history_independent, C06_ranges_tile, C06_empty_unknown_list_with_asserts_refuted, C07_face_offsets, C07_face_mapping_tiles, C07_boundary_face_mapping, C07_right_sentinel_refuted, C18_number_designates_place_and_index, C18_local_functions, C18_other_places_unaffected, C18_element_counts_current, C17_internal_face_numbering, C17_boundary_face_numbering, C17_conforming_numbering_refuted, C20_read_back, C20_readable_positions, C20_no_write_outside, C20_entries_determine_matrix, C20_linear_index, C20_transpose, C20_constant, C20_column, C20_row, C20_from_columns, C20_concatenate, C20_side_by_side, C20_resize_same_rows, C20_resize_keeps_array, C20_entrywise, C20_multiple, C20_axpy, C20_product, C20_matrix_vector, C20_vector_matrix, C20_product_no_rows_refuted, C16_holds_a_matrix, C16_new_matrix, C16_read, C16_read_side, C16_write, C16_write_side, C16_set_element_matrix, C16_set_then_get_entire, C16_get_then_set_entire, C16_entire_entries, C16_sum, C16_multiple, C16_axpy, C16_store_matrix, C16_store_vector, C16_store_dense_matrix, C16_dense_blocks_refuted, C15_readers_return_last_values, C15_written_vectors_readable, C15_other_calls_refused, C15_index_bijection, C15_element_matrix, C15_element_vector, C15_change_count_keeps_earlier_unknowns, C15_change_count_refuted, C21_sum_ranges_over_permutations, C21_determinant_is_leibniz, C21_larger_refused, C21_only_square, C21_identity, C21_multiplicative, C21_transpose, C21_equal_columns, C21_swap_columns, C21_linear_in_column, C22_entries, C22_inner_product_is_determinant, C22_orthogonal_to_columns, C22_swapped_columns, C22_linear_map, C22_other_sizes_refused, C34_all_calls_return, C34_same_set_iff_connected, C34_representative, C34_iteration, C34_find_keeps_items, C35_groups_are_components, C30_explicit_and_complete, C30_order, C30_order_is_exact, C30_stage_times_partial, C30_stage_times_refuted, C30_error_estimate, C30_tvd, C32_getRule_sound, C32_getRule_fails, C32_every_rule_reachable, C31_one_step, C31_adaptive_step, C31_adaptive_completes, C43_right_hand_side, C43_right_hand_side_combination, C44_conservation, C01_reset_succeeds, C01_bijection, C01_repeated_unknown_refuted, C01_self_neighbour_refuted, C02_local_indices, C02_not_owned, C02_same_order, C03_element_indices, C03_face_indices, C03_one_process, C04_process_contiguous, C04_blocked_global, C04_blocked_processor, C04_sequential_object, C05_no_error, C05_no_deadlock, C05_terminates, C05_agree, C05_informed, C05_element_indices, C09_single_level_visit, C09_levels, C09_built_consistent, C09_add_children_at_level_refuted, C09_max_level_refuted, C10_all_levels_visit_partial, C10_all_levels_complete_partial, C10_misses_entries_refuted, C11_preorder_visit, C11_postorder_visit, C11_decrement_undoes_increment, C11_deep_entries_refuted, C12_recorded_position, C12_sub_positions, C12_recorded_position_refuted, C12_second_refinement_refuted, C47_defined, C48_discontinuous_partial, C48_discontinuous_defined, C48_prism_refuted, C48_monomials, C51_values_are_current, C41_answers, C41_solution_partial, C41_history_independent, C41_result_matrix, C41_result_vector, C41_changed_refuted, C41_solution_refuted, C41_uneven_refuted, C41_result_refuted, C52_consistent, C52_merge, C52_execute, C52_remove_unused, C52_remove_unused_returns, C52_remove_again_refuted, C53_sharing, C53_adding, C53_whole, C42_plan, C42_merged, C42_built_ready, C42_sound, C42_refuted, C14_symmetric, C14_owner, C14_requests, C14_once_partial, C14_twice_refuted, C54_synchronize, C39_getRule, C39_available, C08_exact, C08_element_based, C08_no_error, C08_checked, C08_one_process, C08_assembly, C08_assembly_no_error, C08_after_exchange, C08_check_misses_refuted, C08_spurious_error_refuted, C08_node_contact_refuted, C55_sizes, C55_order_zero_refuted, C57_answers_partial, C57_normal_unknown_refuted, C57_sizes_refuted, C57_rule_refuted, C57_solution_refuted, C57_point_first_refuted, C60_binary, C60_binary_refuted, C60_pieces, C61_assembly, C61_construct, C61_construct_one, C61_write, C61_write_one, C61_construct_then_write, C61_write_then_construct, C61_subset_refuted, C61_different_numbers_refuted, C62_assembly, C62_boundary, C62_edges_are_sides, C63_round_trip, C63_face_types, C63_shadow, C63_header_space, C63_shadow_face_types_refuted, C63_repeated_node_refuted, C64_element, C64_reference, C64_face, C65_command_line, C65_defined, C65_numbers, C65_no_numbers, C65_point, C65_bad_numbers_refuted, C67_file, C67_version, C67_lower_names_refuted, C67_no_tags_refuted, C67_unclosed_refuted, C67_reversed_refuted, C69_records, C69_refuses, C69_cut_refuted, C69_release_refuted, C69_group, C69_skip, C69_coordinates, C69_elements, C69_periodic, C69_zones_partial, C69_zones_refuted, C69_default_zone_refuted, C70_pairs, C70_memory, C70_reserve_refuted, C71_small, C71_middle, C71_sizes_refuted, C71_nan_refuted, C73_zones, C73_lines, C73_split, C73_layer, C73_empty_refuted, C73_file_name_refuted, C75_layers, C75_material_refuted, C75_unknown_zone_refuted, C77_path, C77_steps_refuted, C78_faces, C78_one_facet, C78_order, C78_distribution, C78_names_refuted

### `ClassicalDedekindReals.sig_forall_dec`, `FunctionalExtensionality.functional_extensionality_dep`

C23_line, C23_triangle, C23_square_partial, C23_square_rotation_refuted, C23_cube_reflection_refuted, C23_bijections, C23_jacobians, C24_faces, C24_nodes, C24_into_boundary, C24_into_hull, C24_defined, C24_cover_boundary, C24_injective, C24_jacobians, C24_tetrahedron_edges, C45_number_of_nodes, C45_distinct, C45_internal, C45_corners, C45_sides, C45_line_sides, C45_line_orientation, C45_triangle_orientation, C27_nodes, C27_affine, C27_faces, C27_quadratic_faces, C27_hypercube_not_interpolated, C28_jacobians, C28_pyramid_partial, C29_line, C29_simplex, C29_newton_partial, C29_newton_nan_partial, C29_newton_affine, C29_quadratic_affine, C29_newton_refuted, C29_quadratic_refuted, C25_outward, C25_affine, C25_length, C26_two_sides, C26_square_partial, C26_square_refuted, C26_right_map, C33_legendre_derivative, C33_legendre_equation, C33_legendre_parity, C49_integration_points, C38_projection, C56_gradient, C56_curl, C56_divergence, C56_tangential, C56_flux, C58_rotation, C58_congruent, C58_translation, C58_gradient, C58_vector, C58_curl, C58_divergence, C58_reflection_refuted, C59_curve, C59_quadrilateral, C59_hexahedron, C59_triangle, C59_tetrahedron, C59_standard, C60_mapping, C60_prisms_refuted, C66_euler_element, C67_node_order, C67_orientation_partial, C67_prism_mirrored_refuted, C68_rectangular, C68_triangular, C68_periodic_odd_refuted, C68_bindings, C68_bindings_refuted, C68_simplex_dimensions, C72_walk, C72_steps, C72_driver, C72_change_partial, C72_change_refuted, C72_end_refuted, C72_no_steps_refuted, C72_single_refuted, C75_boxes, C76_nan_refuted, C78_fluxes, C79_entries, C79_adjoint, C79_inverse, C79_scalar

### `ClassicalDedekindReals.sig_forall_dec`

C23_cube_partial, C24_edges_on_two_faces, C48_conforming, C48_conforming_defined, C60_mesh, C60_fields, C60_tensors_refuted, C60_master, C60_names_refuted, C62_tables, C68_version, C74_processors

### `ClassicalDedekindReals.sig_not_dec`, `ClassicalDedekindReals.sig_forall_dec`, `FunctionalExtensionality.functional_extensionality_dep`

C45_factory_sound, C45_factory_complete, C46_diameter, C46_diameter_1d, C33_lobatto_derivative, C40_derivatives, C40_defined_partial, C40_defined_refuted, C47_vanishes_partial, C47_prism_refuted, C47_nodal, C47_partition_of_unity, C49_faces_partial, C49_nodes, C49_edges_partial, C49_faces_refuted, C49_edges_refuted, C49_periodic_refuted, C50_discontinuous_partial, C50_refuted, C50_conforming_partial, C50_monomials, C39_exact_partial, C39_exact_one_less, C39_points_inside, C39_points_complete, C38_squeeze_refuted, C38_minimum_point_refuted, C38_bidispersed_refuted, C55_curl, C55_traces, C55_degree, C55_values_exist, C55_curls_exist_partial, C55_curls_missing_refuted, C55_independent_partial, C55_independent_refuted, C48_degree_partial, C48_monomials_degree, C64_exact, C66_euler_consistent, C66_euler_conservative, C66_euler_upwind, C66_waves, C66_euler_wall, C66_euler_wall_refuted, C66_euler_faces, C66_inviscid, C66_inviscid_sides, C66_inviscid_pair_partial, C66_inviscid_pair_refuted, C66_shallow_line, C66_shallow_channel, C66_shallow_plane, C66_shallow_waves, C66_lax_friedrichs_partial, C66_shallow_wall, C66_shallow_faces, C66_shallow_pair, C66_shallow_line_conservative, C66_shallow_line_faces_partial, C66_shallow_line_faces_refuted, C66_lax_friedrichs_refuted, C72_cube, C74_entries, C74_history, C74_zero, C74_hermitian, C74_own_neighbour_refuted, C74_two_faces_refuted, C76_test, C76_exact

### `ClassicalDedekindReals.sig_not_dec`, `ClassicalDedekindReals.sig_forall_dec`, `FunctionalExtensionality.functional_extensionality_dep`, `Classical_Prop.classic`

C33_legendre, C33_legendre_orthogonal, C33_lobatto_partial, C33_lobatto_shape_partial, C33_lobatto_refuted, C39_integral_unique, C39_refuted, C38_average_is_mean, C38_positive_layer_mean, C38_positive_layer_height_partial, C38_positive_layer_total, C38_positivity_refuted, C38_squeeze, C38_average_limiter, C38_bidispersed, C38_bidispersed_outside, C38_tvb, C38_tvb_bounds, C38_tvb_order, C38_loop_mass
