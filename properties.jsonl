{"id": "C01", "title": "Global indexing is a bijection", "statement": "After GlobalIndexing.reset(mesh, layout[, unknowns]) with distinct unknowns, the degrees of freedom (geometric object owned by some process, included unknown, basis function number) are numbered injectively and the numbers used are exactly 0..N-1, where N is the total number of basis functions over all processes; this holds for SEQUENTIAL, BLOCKED_PROCESSOR and BLOCKED_GLOBAL.", "quantifier": "every mesh (elements, faces, edges, nodes with arbitrary numbers of basis functions per unknown), every set of included unknowns, every number of processes and distribution of elements, every layout", "why_tests_cant": "a test fixes one mesh, one layout and usually one process; collisions appear only for particular combinations of basis function counts and process counts", "anchors": ["kernel/Utilities/GlobalIndexing.cpp: GlobalIndexing::reset, constructUnblocked, constructBlocked, Offsets::setOffset", "kernel/Utilities/GlobalIndexing.h: getGlobalIndex"]}
{"id": "C02", "title": "Processor-local indices", "statement": "For an owned degree of freedom the processor-local index is between 0 and the number of local basis functions, the map from owned global indices to processor-local indices is a bijection onto that range, and globalToProcessorLocalIndex inverts it and returns -1 exactly for the global indices that the process does not own.", "quantifier": "every mesh, layout, process count, rank and global index", "why_tests_cant": "the property relates all global indices on all ranks; a test samples a few of them", "anchors": ["kernel/Utilities/GlobalIndexing.h: getProcessorLocalIndex, globalToProcessorLocalIndex, Offsets::owns", "kernel/Utilities/GlobalIndexing.cpp: globalToProcessorLocalIndex"]}
{"id": "C03", "title": "Element and face index lists", "statement": "getGlobalIndices(element, indices) returns exactly one entry per basis function with support on the element, in the order (unknown, element/faces/edges/nodes, basis function), without repetitions, and two elements that share a face, edge or node list the same global indices for its conforming basis functions; getGlobalIndices(face, indices) is the left list followed by the right list.", "quantifier": "every mesh, layout, element, face and included unknown set", "why_tests_cant": "the number of shapes of element/face/edge/node sharing is unbounded", "anchors": ["kernel/Utilities/GlobalIndexing.cpp: getGlobalIndices(element), getGlobalIndices(face)"]}
{"id": "C04", "title": "Blocked layouts keep unknowns contiguous", "statement": "With BLOCKED_GLOBAL all global indices of unknown u precede those of the next included unknown, on all processes; with BLOCKED_PROCESSOR this holds on each process and the indices of one process are contiguous; with SEQUENTIAL the indices of one process are contiguous.", "quantifier": "every mesh, process count and set of unknowns", "why_tests_cant": "order over all indices of all processes, unbounded", "anchors": ["kernel/Utilities/GlobalIndexing.cpp: constructBlocked, constructUnblocked"]}
{"id": "C05", "title": "Index exchange between processes is complete and order independent", "statement": "After reset on several MPI processes, every process knows, for each element in its push/pull lists and for each face, edge and node of such an element, the offset that the owning process assigned, whatever the order in which the messages arrive.", "quantifier": "every distribution of a mesh, every arrival order of the messages of both rounds", "why_tests_cant": "MPI_ANY_SOURCE makes the schedule non-deterministic; tests see one schedule", "anchors": ["kernel/Utilities/GlobalIndexing.cpp: communicatePushPullElements, createInitialMessage, createSecondMessage, processMessage, probeAndReceive"]}
{"id": "C06", "title": "Element-local DoF offsets", "statement": "ElementLocalIndexing gives each included unknown a consecutive range of local DoFs; the ranges follow the sorted order of the unknowns, are disjoint and cover 0..getNumberOfDoFs()-1; a non-included unknown reports UNKNOWN_NOT_INCLUDED and 0 DoFs, after any sequence of reinit calls.", "quantifier": "every history of reinit(unknowns)/reinit(element) calls and every element", "why_tests_cant": "stale state after reinit depends on the history of earlier unknown lists", "anchors": ["kernel/Utilities/ElementLocalIndexing.cpp: reinit", "kernel/Utilities/ElementLocalIndexing.h: getDoFOffset, getNumberOfDoFs"]}
{"id": "C07", "title": "Face-local DoF offsets and mapping", "statement": "FaceLocalIndexing numbers the left DoFs before the right DoFs without gaps or overlap; getDoFMapping maps the DoFs of the element lists of both sides bijectively on the face list; an unknown that is not included is reported as UNKNOWN_NOT_INCLUDED on both sides.", "quantifier": "every pair of elements, numbers of basis functions and unknown lists", "why_tests_cant": "requires all combinations of left/right sizes and unknown subsets", "anchors": ["kernel/Utilities/FaceLocalIndexing.h: getDoFOffset", "kernel/Utilities/FaceLocalIndexing.cpp: getDoFMapping"]}
{"id": "C08", "title": "Sparsity estimate", "statement": "computeSparsityEstimate gives for each owned row exactly the number of owned (resp. non-owned) columns that are coupled to it through an element or a face with the requested coupling; hence the assembly of element and face matrices never inserts an entry outside the preallocated pattern size.", "quantifier": "every mesh, indexing, ownership distribution and face coupling table", "why_tests_cant": "row counts depend on the whole neighbourhood structure of the mesh", "anchors": ["kernel/Utilities/SparsityEstimator.cpp: computeSparsityEstimate, LocalMatrixSideDoFs", "kernel/Utilities/GlobalMatrix.cpp: assemble"]}
{"id": "C09", "title": "Single level traversal of a LevelTree", "statement": "With setSingleLevelTraversal(L), iterating from begin() to end() visits exactly the entries that live on level L, each once, from left to right.", "quantifier": "every forest built by addRootEntry/addChild(ren)/fillToLevel and every level up to maxLevel", "why_tests_cant": "forests are unbounded in depth and branching; tests use a few fixed trees", "anchors": ["kernel/Base/LevelTree_Impl.h: begin, end, setSingleLevelTraversal", "kernel/Base/TreeIterator.h: moveToNextOnLevel, moveToFirstOnLevel, moveToLastOnLevel, moveDownToLevelBegin"]}
{"id": "C10", "title": "All level traversal of a LevelTree", "statement": "With the default ALLLEVEL traversal, iterating from begin() to end() visits all entries of level 0, then all of level 1, and so on, and misses none.", "quantifier": "every forest of entries", "why_tests_cant": "the failure needs a last root whose rightmost leaf is not on the deepest level", "anchors": ["kernel/Base/LevelTree_Impl.h: begin, end", "kernel/Base/TreeIterator.h: moveToNextMultiLevel, moveToNextOnLevel"]}
{"id": "C11", "title": "Pre- and post-order traversal of a LevelTree", "statement": "With pre-order (post-order) traversal, iterating from begin() to end() visits every entry exactly once, each entry before (after) all its descendants, siblings from left to right; decrementing undoes incrementing.", "quantifier": "every forest whose entries occupy one level each", "why_tests_cant": "unbounded shapes", "anchors": ["kernel/Base/TreeIterator.h: moveToNextPreOrder, moveToPreviousPreOrder, moveToNextPostOrder, moveToPreviousPostOrder"]}
{"id": "C12", "title": "Adding mesh entities keeps the tree positions right", "statement": "Mesh::addElement/addFace/addEdge record in the new object the position of its own tree entry.", "quantifier": "every history of additions and refinements of the mesh", "why_tests_cant": "depends on the shape of the forest before the addition", "anchors": ["kernel/Base/Mesh_Impl.h: addElement, addFace, addEdge, addSubElements"]}
{"id": "C13", "title": "Unique identifiers", "statement": "The identifiers handed out by GlobalUniqueIndex for elements (faces, edges, nodes) are pairwise different and consecutive within a kind, whatever the interleaving of requests of the four kinds.", "quantifier": "every sequence of calls of any length", "why_tests_cant": "history property of unbounded length", "anchors": ["kernel/Base/GlobalUniqueIndex.cpp: getElementIndex, getFaceIndex, getEdgeIndex, getNodeIndex"]}
{"id": "C14", "title": "Pull requests are symmetric", "statement": "After processPullRequests, element e is in the pull list of rank p for rank q exactly when e is in the push list of q for p, a pulled element is pulled from the rank that owns it, and no element is pulled twice or pulled from oneself.", "quantifier": "every distribution of elements and every history of addPullElement calls on every rank", "why_tests_cant": "relates the data of all ranks for arbitrary requests", "anchors": ["kernel/Base/Submesh.cpp: processPullRequests", "kernel/Base/Submesh.h: addPullElement"]}
{"id": "C15", "title": "Solution data on an element", "statement": "setData/setTimeLevelData/setTimeIntegrationData/setTimeIntegrationSubvector followed by the corresponding getter returns the value written, and leaves every other (time level, unknown, basis function) unchanged; the flat vector position of (unknown, basis function) is a bijection onto 0..total-1.", "quantifier": "every number of time levels, unknowns, basis functions per unknown and every history of writes", "why_tests_cant": "aliasing of the flat index shows only for particular counts", "anchors": ["kernel/Base/ElementData.cpp: setData, getData, setTimeLevelData, getTimeLevelData, setTimeIntegrationSubvector, getTimeIntegrationSubvector", "kernel/Base/ElementData.h: convertToSingleIndex"]}
{"id": "C16", "title": "Face matrix blocks", "statement": "A FaceMatrix holds one value per pair of face DoFs: setEntireMatrix followed by getEntireMatrix is the identity, operator()(i,j) and getElementMatrix(side,side) address the same entries, +=, *= and axpy act entry-wise, and FaceData::setFaceMatrix stores a matrix whose blocks have the sizes of the two adjacent elements.", "quantifier": "every pair of DoF counts and all matrices", "why_tests_cant": "splitting errors are invisible when both sides have equal size", "anchors": ["kernel/Base/FaceMatrix.cpp: setEntireMatrix, getEntireMatrix, operator(), axpy", "kernel/Base/FaceData.cpp: setFaceMatrix"]}
{"id": "C17", "title": "Face DoF numbering", "statement": "Face::convertToSingleIndex(side, basisFunction, unknown) numbers the DoFs of both adjacent elements 0..n-1 without collisions, and getSide/getElementBasisFunctionId invert it.", "quantifier": "every internal or boundary face, any basis function counts, discontinuous and conforming bases", "why_tests_cant": "needs bases with conforming functions and unequal elements", "anchors": ["kernel/Base/Face.cpp: convertToSingleIndex, getSide, getElementBasisFunctionId"]}
{"id": "C18", "title": "Basis function sets on an element", "statement": "Element-wide basis function number i of an unknown designates set s and index j with offset(place of s)+j = i; every number below getNumberOfBasisFunctions designates exactly one (place, index); registering or clearing one place or unknown does not affect the others.", "quantifier": "every history of registerBasisFunctionPosition/clearBasisFunctionPosition calls", "why_tests_cant": "history property with sparse places", "anchors": ["kernel/Base/ElementBasisFunctions.cpp: getBasisFunctionSetAndIndex, getBasisFunctionOffset, registerBasisFunctionPosition", "kernel/Base/ElementBasisFunctions.h: getNumberOfBasisFunctions"]}
{"id": "C19", "title": "Lazy caches", "statement": "LazyCached/LazyVectorCached::get returns the value computed for the current index, runs the computation at most once between resets, and after reset recomputes.", "quantifier": "every sequence of get/reset/resize calls and every deterministic computation", "why_tests_cant": "history property", "anchors": ["kernel/Base/LazyCached.h: LazyCached, LazyVectorCached"]}
{"id": "C20", "title": "Dense matrix storage", "statement": "MiddleSizeMatrix/SmallMatrix/Table2D store entry (i,j) in one place: writes are read back, distinct positions do not alias, transpose swaps indices and is an involution, getRow/getColumn/concatenate/constructor-from-columns give the documented entries.", "quantifier": "every matrix size and every entry", "why_tests_cant": "layout bugs vanish on square or symmetric test matrices", "anchors": ["kernel/LinearAlgebra/MiddleSizeMatrix.cpp: operator(), transpose, getRow, getColumn, concatenate", "kernel/Utilities/Table2D.h", "kernel/LinearAlgebra/SmallMatrix_impl.h"]}
{"id": "C21", "title": "Determinants", "statement": "SmallMatrix::determinant and Jacobian::determinant return the determinant (Leibniz sum, equivalently the alternating multilinear function that is 1 on the identity) for sizes 0 to 4; it is multiplicative and is zero when two columns agree.", "quantifier": "all real matrices of size up to 4", "why_tests_cant": "the polynomial identity has up to 24 terms in 16 variables", "anchors": ["kernel/LinearAlgebra/SmallMatrix_impl.h: determinant", "kernel/Geometry/Jacobian_Impl.h: determinant"]}
{"id": "C22", "title": "Generalised cross product", "statement": "computeWedgeStuffVector returns a vector orthogonal to all columns, equal to the vector of determinants of the matrix augmented with the unit vectors, so that its inner product with v is the determinant of the matrix augmented with v; it changes sign when two columns are swapped.", "quantifier": "all real n x (n-1) matrices, n = 2, 3, 4", "why_tests_cant": "polynomial identity over the reals", "anchors": ["kernel/LinearAlgebra/SmallMatrix_impl.h: computeWedgeStuffVector"]}
{"id": "C23", "title": "Face-to-face mapping index", "statement": "For a face shape and two orderings v1, v2 of the same physical nodes that belong to the symmetry group of the shape, the mapping selected by getCodim0MappingIndex(v1,v2) sends the reference position of each physical node in ordering 1 to its reference position in ordering 2; the selected map is a bijection of the reference face.", "quantifier": "all node numberings v1, v2 of line, triangle, square, cube faces", "why_tests_cant": "each relative orientation of two neighbouring elements of an arbitrary unstructured mesh", "anchors": ["kernel/Geometry/ReferenceSquare.cpp: getCodim0MappingIndex", "kernel/Geometry/ReferenceTriangle.cpp: getCodim0MappingIndex", "kernel/Geometry/ReferenceLine.cpp: getCodim0MappingIndex", "kernel/Geometry/ReferenceCube.cpp: getCodim0MappingIndex", "kernel/Geometry/Mappings/MappingToRefSquareToSquare.cpp", "kernel/Geometry/Mappings/MappingToRefTriangleToTriangle.cpp", "kernel/Geometry/Mappings/MappingCodimensions.h"]}
{"id": "C24", "title": "Face maps land on the right face", "statement": "The codim-1 mapping of local face f of a reference element maps node k of the face's reference geometry to the element node getCodim1EntityLocalIndices(f)[k], maps the reference face into the closed element boundary, and its Jacobian is the derivative of the map.", "quantifier": "all points of the reference faces of line, square, triangle, cube, tetrahedron, pyramid, prism, hypercube", "why_tests_cant": "continuum of points", "anchors": ["kernel/Geometry/Mappings/MappingToRef*To*.cpp: transform, calcJacobian", "kernel/Geometry/Reference*.cpp: localNodeIndexes_"]}
{"id": "C25", "title": "Outward normals", "statement": "getNormalVector computed from the face map, the outward-normal sign and an element map with invertible Jacobian is orthogonal to the face tangents and points out of the element.", "quantifier": "all reference faces and all non-singular affine element maps", "why_tests_cant": "all affine images of the element, both orientations", "anchors": ["kernel/Geometry/FaceGeometry.cpp: getNormalVector", "kernel/Geometry/Mappings/OutwardNormalVectorSign.h", "kernel/LinearAlgebra/SmallMatrix_impl.h: computeWedgeStuffVector"]}
{"id": "C26", "title": "Both sides of a face see the same physical point", "statement": "For an internal face between two elements, mapping a reference face point through the left and through the right element gives the same physical point.", "quantifier": "every conforming pair of neighbouring elements in every relative orientation and every point of the face", "why_tests_cant": "combination of two face maps, one face-to-face map and two element maps over all orientations", "anchors": ["kernel/Geometry/FaceGeometry.h: mapRefFaceToRefElemL, mapRefFaceToRefElemR", "kernel/Geometry/FaceGeometry.cpp: initialiseFaceToFaceMapIndex"]}
{"id": "C27", "title": "Element maps interpolate the nodes", "statement": "The reference-to-physical mapping of an element sends each reference node to the corresponding physical node, reproduces affine maps exactly, and on a face depends only on the nodes of that face.", "quantifier": "all node coordinates of line, square, cube, triangle, tetrahedron, pyramid, prism and quadratic simplex elements", "why_tests_cant": "all real node positions", "anchors": ["kernel/Geometry/Mappings/MappingToPhysHypercubeLinear.cpp", "kernel/Geometry/Mappings/MappingToPhysSimplexLinear_Impl.h", "kernel/Geometry/Mappings/MappingToPhysPyramid.cpp", "kernel/Geometry/Mappings/MappingToPhysTriangularPrism.cpp"]}
{"id": "C28", "title": "Element map Jacobians", "statement": "calcJacobian of each reference-to-physical mapping is the matrix of partial derivatives of transform.", "quantifier": "all node coordinates and all reference points", "why_tests_cant": "identity between functions on a continuum", "anchors": ["kernel/Geometry/Mappings/MappingToPhys*.cpp: calcJacobian"]}
{"id": "C29", "title": "Inverse element maps", "statement": "inverseTransform(transform(x)) = x whenever the mapping is invertible (exactly for linear mappings), and a result returned by the Newton iteration that is not NaN satisfies the stopping criterion.", "quantifier": "all invertible element geometries and points", "why_tests_cant": "the iteration count is data dependent", "anchors": ["kernel/Geometry/Mappings/MappingToPhysHypercubeLinear.cpp: inverseTransform", "kernel/Geometry/Mappings/MappingToPhysSimplexLinear_Impl.h: inverseTransform"]}
{"id": "C30", "title": "Butcher tableaux satisfy the order they claim", "statement": "Each time integrator's tableau is explicit, consistent (sum b = 1, c_i = sum_j a_ij) and satisfies the Runge-Kutta order conditions up to getOrder().", "quantifier": "all ODE systems, linear and non-linear, autonomous and time dependent (through the order conditions)", "why_tests_cant": "order is an asymptotic statement about all right-hand sides", "anchors": ["kernel/Base/TimeIntegration/*.cpp", "kernel/Base/HpgemAPISimplified_Impl.h: computeOneTimeStep"]}
{"id": "C31", "title": "One Runge-Kutta step", "statement": "computeOneTimeStep advances the solution vector to u + dt*sum b_i k_i where k_i = f(t + c_i dt, u + dt*sum_{j<i} a_ij k_j) and time to t+dt; an adaptive step that is rejected restores the solution before retrying.", "quantifier": "all right-hand sides, states, times, step sizes and explicit tableaux with any number of stages", "why_tests_cant": "all right-hand sides, any number of stages", "anchors": ["kernel/Base/HpgemAPISimplified_Impl.h: computeOneTimeStep"]}
{"id": "C32", "title": "Choosing a time integrator", "statement": "AllTimeIntegrators::getRule(order, stages, tvd) returns an integrator of exactly the requested order and number of stages that is total variation diminishing if requested, prefers one with the requested TVD property, and fails only if none exists.", "quantifier": "all requests and any registered rule list", "why_tests_cant": "statement about all requests and all registries", "anchors": ["kernel/Base/TimeIntegration/AllTimeIntegrators.cpp: getRule"]}
{"id": "C33", "title": "Legendre and Lobatto polynomials", "statement": "LegendrePolynomial(n,x) is the Legendre polynomial (P_n(1)=1, satisfies Legendre's equation, orthogonal), LegendrePolynomialDerivative is its derivative; (1-x^2)/4 * LobattoPolynomial(k,x) is the normalised integral of P_{k+1}, and LobattoPolynomialDerivative is the derivative of LobattoPolynomial.", "quantifier": "all degrees and all real x", "why_tests_cant": "all degrees, all points", "anchors": ["kernel/FE/helperFunctions.cpp: LegendrePolynomial, LegendrePolynomialDerivative, LobattoPolynomial, LobattoPolynomialDerivative"]}
{"id": "C34", "title": "Union-find", "statement": "After any sequence of unionSets calls, inSameSet(a,b) holds exactly when a and b are connected by the merged pairs; findSet does not change the partition and returns a member of the set; findSet terminates; iteration lists exactly the items in sets of two or more.", "quantifier": "every sequence of operations on arbitrary indices", "why_tests_cant": "history property with path compression and ranks", "anchors": ["applications/Preprocessor/lib/utils/SparseUnionFind.cpp: findSet, findSetPresent, unionSets"]}
{"id": "C35", "title": "Merge groups", "statement": "groupMerges turns a list of pairs into disjoint groups without duplicates, each with at least two members, such that two different ids are in one group exactly when they are connected by pairs.", "quantifier": "every list of merge pairs", "why_tests_cant": "transitive closure of arbitrary relations", "anchors": ["applications/Preprocessor/lib/MergePlan.h: groupMerges"]}
{"id": "C36", "title": "Reordering of element nodes", "statement": "reorderFromHpGem undoes reorderToHpGem (and conversely) for every registered element type, the reordering is a permutation of the node list, and only permutations can be registered.", "quantifier": "every registry of element types and every node list", "why_tests_cant": "every order vector a user may register", "anchors": ["applications/Preprocessor/lib/ElementReorder.cpp: reorderToHpGem, reorderFromHpGem, addElementType, checkOrder"]}
{"id": "C37", "title": "Base64 encoding", "statement": "toBase64 produces a standard base64 string: length 4*ceil(n/3), alphabet characters with at most two trailing '=', and standard decoding returns the original bytes.", "quantifier": "every byte string of any length", "why_tests_cant": "all byte strings", "anchors": ["kernel/Output/base64.cpp: toBase64"]}
{"id": "C38", "title": "Positivity and slope limiters", "statement": "The Savage-Hutter limiters keep the element average of the height (mass) and of limited variables unchanged, and the limited height is at least the minimum height whenever the average is.", "quantifier": "all polynomial solutions on an element", "why_tests_cant": "all coefficient vectors", "anchors": ["applications/SavageHutter/HeightLimiters/PositiveLayerLimiter_Impl.h: limit", "applications/SavageHutter/HeightLimiters/SqueezeLimiterWithLayer_Impl.h: limit", "applications/SavageHutter/SlopeLimiters/TvbLimiter1D.cpp: limitWithMinMod"]}
{"id": "C39", "title": "Quadrature exactness", "statement": "A quadrature rule of order k integrates every polynomial of degree k over its reference element exactly (up to the rounding of its tabulated decimals), and its points lie in the reference element.", "quantifier": "all polynomials of degree at most the order", "why_tests_cant": "infinitely many polynomials", "anchors": ["kernel/Integration/QuadratureRules/GaussQuadratureRulesFor*.cpp"]}
{"id": "C40", "title": "Basis function derivatives", "statement": "For each basis function class, evalDeriv0/1/2 (evalCurl/evalDiv) return the derivatives of eval.", "quantifier": "all points, all admissible indices of the basis functions", "why_tests_cant": "identity between functions on a continuum for a family of functions", "anchors": ["kernel/FE/BasisFunctions*.cpp: eval, evalDeriv0, evalDeriv1, evalDeriv2, evalCurl"]}
{"id": "C41", "title": "Physical element caches are coherent", "statement": "Whatever sequence of setPointReference, setElement, setTransformation, setQuadratureRule, setQuadraturePointIndex and getters was called on a PhysicalElement, every getter returns what a freshly built PhysicalElement with the same current element, point and transformation would return.", "quantifier": "all call histories", "why_tests_cant": "stale caches show up only for particular call orders", "anchors": ["kernel/Base/PhysicalElement_Impl.h: setPointReference, setElement, setTransformation, setQuadraturePointIndex, getJacobian, getSolution"]}
{"id": "C42", "title": "Merge plan of the mesh preprocessor", "statement": "Given pairs of coordinates to be identified, the merge plan groups on every level exactly the mesh entities whose node coordinates are identified by the pairing, and groups are disjoint.", "quantifier": "all meshes and coordinate pairings", "why_tests_cant": "depends on arbitrary connectivity and chains of identifications", "anchors": ["applications/Preprocessor/lib/MergePlan.h: computeMergePlan, computeMergePlanLevels, findLeftCandidates"]}
{"id": "C43", "title": "Assembly of the right-hand side", "statement": "computeRightHandSide stores on every element the element contribution plus the contribution of each of its faces (left side, right side or boundary), each exactly once, evaluated at the (combined) input vectors, and changes no other vector.", "quantifier": "all meshes, face orders, input combinations and application functions", "why_tests_cant": "arbitrary meshes, including faces with the same element on both sides", "anchors": ["kernel/Base/HpgemAPISimplified_Impl.h: computeRightHandSide, getLinearCombinationOfVectors"]}
{"id": "C44", "title": "Discrete conservation", "statement": "For every additive functional of the coefficients (such as the integral of an unknown) its total over the mesh of the assembled right-hand side is the total of the element terms plus, per face, what the face gives to its sides; so equal and opposite face terms cancel.", "quantifier": "all meshes, additive functionals and application functions", "why_tests_cant": "global cancellation over arbitrary meshes", "anchors": ["kernel/Base/HpgemAPISimplified_Impl.h: computeRightHandSide"]}
{"id": "C45", "title": "Reference elements of arbitrary order", "statement": "A reference line, triangle or tetrahedron of order o has binomial(o+dim, dim) distinct nodes inside the element; the geometry factory returns, for a dimension and number of nodes, an element with exactly that number of nodes and finds every curved element; the corners and the nodes of each side are found among the nodes, node k of a side being mapped to the node with the k-th listed index; and the face-to-face mapping selected for two orderings is the one that carries all nodes.", "quantifier": "every order (for the node search: every order whose node spacing exceeds the search tolerance), every number of nodes, every side", "why_tests_cant": "the order is unbounded and node positions are found by a search with a tolerance", "anchors": ["kernel/Geometry/ReferenceCurvilinearElement_Impl.h", "kernel/Geometry/ReferenceCurvilinearLine.cpp", "kernel/Geometry/ReferenceCurvilinearTriangle.cpp", "kernel/Geometry/ReferenceCurvilinearTetrahedron.cpp", "kernel/Geometry/ReferenceGeometryFactory.cpp: getGeometry"]}
{"id": "C46", "title": "Face diameter", "statement": "The diameter of a face (getDiameter) is the largest distance between two of its nodes: no pair of nodes is further apart and one pair attains it. In one dimension it is 1.", "quantifier": "every element type in two to four dimensions, all node coordinates and every face", "why_tests_cant": "all real node positions", "anchors": ["kernel/Geometry/FaceGeometry.cpp: computeFaceDiameter, computeDiameter"]}
{"id": "C47", "title": "Supports of conforming basis functions", "statement": "A function of the conforming basis that belongs to a node, edge, face or to the interior of an element vanishes on every face of the element that does not contain that node, edge or face. The function of a node is 1 in this node and 0 in the other nodes, and the functions of all nodes add up to 1.", "quantifier": "every element shape, every polynomial order, every orientation, every point", "why_tests_cant": "identities on a continuum for families of functions of unbounded order", "anchors": ["kernel/FE/BasisFunctions*H1Conforming*.cpp: create*BasisFunctionSet*, eval", "kernel/Base/MeshManipulator_Impl.h: useDefaultConformingBasisFunctions"]}
{"id": "C48", "title": "Size of the basis", "statement": "The discontinuous basis of order k of an element, and the conforming basis with the functions of its interior, faces, edges and nodes, have as many functions as the polynomial space of order k has dimensions, and every function belongs to that space: it is a polynomial of total degree at most k on simplices, of degree at most k in each coordinate on squares and cubes.", "quantifier": "every element shape and every order", "why_tests_cant": "the order is unbounded", "anchors": ["kernel/FE/BasisFunctions*H1Conforming*.cpp: createDGBasisFunctionSet*, createInterior*, createFace*, createEdge*, createVertex*", "kernel/FE/BasisFunctionsMonomials.cpp: assembleMonomialBasisFunctions*"]}
{"id": "C49", "title": "Conformity across faces", "statement": "When two elements share a face, the n-th basis function of the face seen from the left element and the n-th seen from the right element have the same value in every point of the face, and so do the functions of each shared node and edge: with the default conforming basis functions the solution is continuous.", "quantifier": "all pairs of elements with a common face, all orderings of its nodes, all orders, all points of the face", "why_tests_cant": "the orderings combine with unbounded orders and a continuum of points", "anchors": ["kernel/Base/MeshManipulator_Impl.h: useDefaultConformingBasisFunctions", "kernel/FE/OrientedBasisFunctionSet.h: checkOrientation", "kernel/Base/Edge.cpp: addElement, getOrientation"]}
{"id": "C50", "title": "Independence of the basis", "statement": "The functions of a discontinuous basis set are linearly independent: a combination that vanishes in all points has only zero coefficients (so mass matrices are invertible).", "quantifier": "every order and every combination of coefficients", "why_tests_cant": "statement about all linear combinations for unbounded order", "anchors": ["kernel/FE/BasisFunctions*H1Conforming*.cpp: createDGBasisFunctionSet*", "kernel/FE/BasisFunctionsMonomials.cpp"]}
{"id": "C51", "title": "Pre-evaluated basis functions of quadrature rules are current", "statement": "For every history in which sets of basis functions are created, extended and deleted (also at an address that was used before) and in which quadrature rules evaluate functions of them, at their own points or at points mapped from a face, each evaluation returns the value the function now in the set has at the (mapped) point of the rule, whatever is still stored from earlier evaluations; an evaluation fails only when it is illegal (no such set, function or point, or a kind of value that does not exist in that dimension).", "quantifier": "all histories of creations, extensions, deletions and evaluations, all rules, functions, points and face maps", "why_tests_cant": "The values are kept in tables keyed by the address of a set; a stale entry shows only for particular histories (deletion and reuse of an address, growth between two evaluations), of which tests run a few.", "anchors": ["kernel/Integration/QuadratureRules/GaussQuadratureRule.h: QuadratureRules::GaussQuadratureRule", "kernel/Integration/QuadratureRules/GaussQuadratureRule.cpp: eval, evalGrad, evalCurl, evalDiv, unregisterBasisFunctionSet", "kernel/FE/BasisFunctionSet.h: registerQuadratureRule"]}
{"id": "C52", "title": "The preprocessor's mesh stays consistent", "statement": "After any sequence of calls that add nodes, coordinates and elements, set parts of elements, merge entities and remove unused entities, every entity lists exactly the elements it is part of, every part of an element exists and every corner coordinate of an element belongs to that corner's node. Merging a source into a target replaces the source on all elements and nothing else; removing unused entities renumbers without identifying entities and leaves none unused.", "quantifier": "all dimensions and call sequences starting from an empty mesh", "why_tests_cant": "an arbitrary interleaving of modifications of cross-linked lists; renumbering bugs need particular patterns of unused entities", "anchors": ["applications/Preprocessor/lib/mesh/Mesh.h: Mesh::addNode, Mesh::addNodeCoordinate, Mesh::addElement, Mesh::removeUnusedEntities", "applications/Preprocessor/lib/mesh/MeshImpl/MeshEntity.h: MeshEntity::merge"]}
{"id": "C53", "title": "Elements of the preprocessor's mesh share entities", "statement": "When elements are added by their corner coordinates, two sub-entities (edges, faces) of elements are the same mesh entity if and only if they have the same set of nodes. Adding an element with a number of distinct-node corners that fits a shape always succeeds and does not change the other elements.", "quantifier": "all meshes reached by adding nodes, coordinates and elements, all shapes of dimension 1 to 3", "why_tests_cant": "whether an edge or face is found depends on all elements added before it", "anchors": ["applications/Preprocessor/lib/mesh/Mesh.h: Mesh::addElement, Mesh::fixConnectivity, Mesh::fixElement, Mesh::fixEntity", "applications/Preprocessor/lib/mesh/ElementShapes.h"]}
{"id": "C54", "title": "Synchronising shadow elements", "statement": "After synchronize, on every process the vector of every element that the process receives (its shadow elements and the elements it asked for) equals the vector of that element on the process that owns it, and all other vectors are unchanged. The exchange cannot deadlock, whatever the order in which processes make their calls and messages arrive.", "quantifier": "all partitionings, request histories, vectors and schedules of the MPI processes", "why_tests_cant": "the schedules of several processes with asynchronous messages cannot be enumerated, and wrong matching shows only for some", "anchors": ["kernel/Base/HpgemAPIBase_Impl.h: synchronize", "kernel/Base/MpiContainer.h: send, receive, sync", "kernel/Base/Submesh.cpp: processPullRequests"]}
{"id": "C55", "title": "Curl conforming basis functions", "statement": "The curl returned for a curl conforming basis function is the curl of the values returned for it. Each function of a set belongs to an edge, a face or the interior, and has no tangential component on any part of the boundary that does not contain that edge or face. The functions of a set are polynomials of degree at most the order, they are linearly independent, their number is the dimension of the space they are made for, and values and curls exist in all points.", "quantifier": "all orders from 1 on, all functions of the sets of Nedelec on triangles and tetrahedra and of Ainsworth and Coyle on tetrahedra, all points, all faces and edges", "why_tests_cant": "hundreds of lines of hand-expanded derivatives, at all orders; linear independence and vanishing traces are statements about whole functions, not about sampled points", "anchors": ["kernel/FE/BasisFunctions2DNedelec.cpp: eval, evalCurl, createDGBasisFunctionSet2DNedelec", "kernel/FE/BasisFunctions3DNedelec.cpp: eval, evalCurl, createDGBasisFunctionSet3DNedelec", "kernel/FE/BasisFunctions3DAinsworthCoyle.cpp: eval, evalCurl, createDGBasisFunctionSet3DAinsworthCoyle"]}
{"id": "C56", "title": "Transformed derivatives are physical derivatives", "statement": "Let a function on a physical element be given by transforming the values of a function on its reference element. Transforming the gradient of the reference function with the H1 conforming transformation gives the gradient of the physical function; transforming the curl with the curl conforming transformation gives its curl; transforming the divergence with the div conforming transformation gives its divergence. This holds for curved and distorted elements too, where the transformation varies from point to point. The curl conforming transformation keeps tangential components and the div conforming transformation keeps fluxes, so that functions stay conforming.", "quantifier": "all element types with a mapping and all positions of their nodes, all points with an invertible Jacobian (for pyramids outside of the tip), all differentiable functions", "why_tests_cant": "Tests evaluate some polynomials on some elements; errors in the transformation of derivatives that vanish on affine elements, or on elements with orthogonal edges, pass them.", "anchors": ["kernel/Base/H1ConformingTransformation.h: transform, transformDeriv", "kernel/Base/HCurlConformingTransformation.h: transform, transformCurl", "kernel/Base/HDivConformingTransformation.h: transform, transformDiv", "kernel/Base/CoordinateTransformationData.h: setJacobian"]}
{"id": "C57", "title": "Values on a physical face follow from the current settings", "statement": "After any sequence of calls on a PhysicalFace (setFace, setPointReference, setTransform, setQuadratureRule, setQuadraturePointIndex and all getters), the basis functions of both sides, their derivatives, curls, divergences and products with the normal, the solution, the point and the normal vectors returned are those determined by the last settings: functions of the left element come first and then those of the right element, the latter transformed to the coordinates of the left element when the face glues two places; products with the normal use the outward normal of the side the function belongs to; previously cached values never show.", "quantifier": "every finite sequence of setters and getters on a new PhysicalFace for internal or boundary faces, all faces, points, rules, transformations and unknowns", "why_tests_cant": "Several caches are filled lazily and reset in different setters; whether a stale one shows depends on the order of the calls, of which there are infinitely many.", "anchors": ["kernel/Base/PhysicalFace.h: PhysicalFace", "kernel/Base/PhysicalFace_Impl.h: setFace, setPointReference, setTransform, setQuadratureRule, setQuadraturePointIndex, basisFunction*, getSolution*, getNormalVector", "kernel/Integration/FaceIntegral_Impl.h"]}
{"id": "C58", "title": "What is read from the right side of a periodic face is turned to the left side by the rotation that glues the sides", "statement": "For every internal face in two or three dimensions whose right side is mapped to its left side by a rigid motion with a rotation Q, the physical face determines exactly Q (or turns nothing when Q is the identity up to 1e-8 or the sides coincide), so that gradients, vector values, curls and divergences read from the right side are those of the right function carried to the left side by the rigid motion; sides of the same size and shape always have such a rotation, so the face is not refused; nothing is turned on boundary faces and on faces glued by a translation.", "quantifier": "all pairs of sides with corners in any position, all rotations in two and three dimensions, all differentiable scalar and vector functions on the right side", "why_tests_cant": "there are infinitely many positions of the corners and infinitely many rotations; tests use axis parallel periodic boundaries for which no rotation is needed", "anchors": ["kernel/Base/PhysicalFace_Impl.h:updateLeftRightTransform", "kernel/Base/PhysicalFace_Impl.h:computeDirectionVectors", "kernel/LinearAlgebra/SmallMatrix_impl.h:solve", "kernel/Base/CoordinateTransformationData.h:setJacobian"]}
{"id": "C59", "title": "The points of the cells in the output for ParaView are where VTK expects them", "statement": "For every order of at least one, each of the Lagrange cells (curve, triangle, quadrilateral, tetrahedron, hexahedron) is constructed without leaving its array and with the number of points that VTK expects; the point with number i is the lattice point that the numbering of VTK assigns to i, no point occurs twice and no lattice point is missing. The linear cells list the corners of the reference element in the order of VTK.", "quantifier": "all orders, all point numbers, all cell types", "why_tests_cant": "a test compares the points for a few low orders; the layers inside of triangles and tetrahedra only show their pattern for higher orders and every order has its own arithmetic of indices", "anchors": ["kernel/Output/VTKLagrangeCurve.cpp", "kernel/Output/VTKLagrangeQuadrilateral.cpp", "kernel/Output/VTKLagrangeHexahedron.cpp", "kernel/Output/VTKLagrangeTriangle.cpp:computeBaryIntegerPoints", "kernel/Output/VTKLagrangeTetrahedron.cpp", "kernel/Output/VTKStandardElements.cpp"]}
{"id": "C60", "title": "What VTK reads from an output file is the mesh and the fields", "statement": "For every list of elements for which the writer has cells, reading the arrays with the types, offsets, connectivity and coordinates by the rules of VTK gives, for each element in order, the type of its cell and the images of the points of the cell under the map of the element, with zeros for missing coordinates. A scalar or vector field, read by the announced number of components, has for each of these points the value that the user's functions gave there; a tensor field should have that too. The master file announces the arrays that the local files contain and names the files that the processes write. A binary array decodes to the bytes of the values.", "quantifier": "all meshes, maps of elements, orders and dimensions up to three, all user functions and data, all sets of fields, all base names", "why_tests_cant": "a test compares a reference file for one mesh; the offsets, the padding and the order of the points against the order of the fields depend on the mix of cells, and limits on sizes show only in huge files", "anchors": ["kernel/Output/VTKSpecificTimeWriter_Impl.h:writeLocalFileHeader", "kernel/Output/VTKSpecificTimeWriter_Impl.h:writeMultiple", "kernel/Output/VTKSpecificTimeWriter_Impl.h:writePaddedVector", "kernel/Output/VTKSpecificTimeWriter_Impl.h:writePaddedTensor", "kernel/Output/VTKSpecificTimeWriter_Impl.h:writeBinaryDataArrayData", "kernel/Output/VTKSpecificTimeWriter_Impl.h:writeMasterFileHeader", "kernel/Output/VTKSpecificTimeWriter_Impl.h:setupMapping"]}
{"id": "C61", "title": "The global vector and the elements exchange data faithfully", "statement": "Assembling the global vector never fails on element and face vectors of the right size, and gives each degree of freedom the sum of what all elements and all faces contribute to it, once each, on any number of processes and in whatever order the values are added. Reading time integration data into the vector stores the value that the elements have for each degree of freedom; reading one unknown leaves zeros for the others. Writing the vector gives every element that a process sees, also those of other processes, the entries for its degrees of freedom in its own order. Reading and writing are inverse to each other. This should also hold with a selection of the unknowns and for unknowns with different numbers of basis functions.", "quantifier": "all meshes spread over any number of processes, all layouts and selections of unknowns, all data, all orders in which PETSc adds or inserts values", "why_tests_cant": "a test runs one mesh on one or two processes, with one layout and the order of insertion that happens to occur; shared functions on faces and nodes of several processes and contributions counted twice or lost depend on the partition", "anchors": ["kernel/Utilities/GlobalVector.cpp:GlobalPetscVector::assemble", "kernel/Utilities/GlobalVector.cpp:GlobalPetscVector::constructFromTimeIntegrationVector", "kernel/Utilities/GlobalVector.cpp:GlobalPetscVector::writeTimeIntegrationVector", "kernel/Base/Face.h:isOwnedByCurrentProcessor", "kernel/Base/ElementData.h:convertToSingleIndex"]}
{"id": "C62", "title": "The global matrix is the sum of the local matrices, and boundary entries are those of the face", "statement": "Assembling the global matrix never fails on element and face matrices of the right size, and gives the entry for two degrees of freedom the sum of the corresponding entries of the matrices of all elements and all faces, once each, on any number of processes, in whatever order the values are added, also when rows and columns have different selections of the unknowns. The list of boundary entries of a face grows by exactly the indices of the degrees of freedom on the face, on its edges and on its nodes, without repetitions, and the count grows by their number.", "quantifier": "all meshes spread over any number of processes, all layouts and selections of unknowns of rows and columns, all local matrices, all orders in which PETSc adds values, all faces and all three dimensional reference elements", "why_tests_cant": "a test assembles one matrix on one or two processes; a transposed block, a face counted on both sides or a wrong edge on the boundary only shows for particular meshes and partitions", "anchors": ["kernel/Utilities/GlobalMatrix.cpp:GlobalPetscMatrix::assemble", "kernel/Utilities/GlobalMatrix.cpp:GlobalMatrix::getMatrixBCEntries", "kernel/Base/Face.h:isOwnedByCurrentProcessor", "kernel/Geometry/ReferenceGeometry.h:getCodim2EntityLocalIndices"]}
{"id": "C63", "title": "A mesh file gives every process its part of the mesh", "statement": "A consistent mesh of dimension two or three that the preprocessor has split over any number of processes is written to a file without an error, and every process reads the file without an error. Process p then has exactly its own elements and the elements that share a node with one of them, each with the coordinates, the zone, the owner, the nodes, the faces and the edges it had in the preprocessor, and no other nodes, faces and edges; every face has the sides that the process knows, and is a wall exactly when it has one side in the whole mesh; edges have the orientation given by their nodes; faces next to an own element are inner, periodic, subdomain or periodic subdomain faces as their sides are owned by one or two processes and are or are not at the same place; and the exchange lists of all processes come from one valid list of owners and shadows. The counts that are written into the header afterwards fit in the space left for them.", "quantifier": "all consistent meshes with elements of any kinds known to the kernel, all partitions and zones, all numbers of processes, every process, all values and all ids in use before the file is read", "why_tests_cant": "a test reads a few files with one or two processes; a wrong offset into the coordinates of a periodic node, a face that is dropped next to a corner, or a missing shadow only shows for particular partitions", "anchors": ["applications/Preprocessor/lib/output_impl.h:outputMesh", "kernel/Base/MeshManipulator_Impl.h:readMesh", "kernel/Base/MeshFileInformation.cpp:readInformation", "kernel/Geometry/FaceGeometry.cpp", "kernel/Base/Edge.cpp:addElement", "kernel/Base/Node.cpp:addElement"]}
{"id": "C64", "title": "Integrals over elements and faces are the sums of the quadrature rule", "statement": "After any sequence of calls on an integral object (other integrals, changes of the transformations, calls on the physical element or face it gives out, changes of the mesh), the integral over an element that is returned is the sum over all points of the quadrature rule of the weight of the point, the absolute determinant of the Jacobian in that point if scaling is on, and the value of the integrand in that point, where every value the integrand asks for is that of the given element in that point with the transformations that were set; the rule is the one that was given, or the one of the element. The same holds for integrals over the reference element without scaling, and for faces with the length of the normal vector, where the integrand sees both sides of an inner face. Such an integral is always returned if the rule belongs to the reference geometry and the integrand asks for existing things. When the scaled integrand is a polynomial of a degree the rule is made for, the result is the integral over the reference element up to the accuracy of the rule.", "quantifier": "all elements, faces, rules, integrands (programs that ask the physical element or face in any order, depending on the answers), transformations, and all histories of the integral object", "why_tests_cant": "a test integrates a few functions with a fresh object; a value that is left from the previous element, point or rule only shows for particular sequences of integrals and integrands", "anchors": ["kernel/Integration/ElementIntegral_Impl.h:integrate,integratePair,referenceElementIntegral,setTransformation", "kernel/Integration/FaceIntegral_Impl.h:integrate,integratePair,setTransformation", "kernel/Integration/ElementIntegral.h:getScaleFactor", "kernel/Integration/FaceIntegral.h:getScaleFactor"]}
{"id": "C65", "title": "The options of a program are those of its command line", "statement": "For every set of declared options and every command line, the program goes on exactly when the words are options (--name, --name argument, -abc, -abc argument, where the first declared option with a name or letter counts), every argument is accepted by the type of its option, all required options are there and help is not asked; it stops with a message in all other cases and never reads outside the command line. Every option then has the value of its last use, or its default, and is marked as used exactly if it occurs. After the word -- nothing is read: the libraries get the name of the program and the words that follow. Decimal numbers that fit the type of the option are given to it exactly, and text with other characters is refused. A point in an argument is the list of its comma separated numbers.", "quantifier": "all lists of declared options (also with equal names), all command lines, all texts and numbers, all numbers of coordinates", "why_tests_cant": "a test parses a few command lines; which words are taken as arguments, what happens at the end of the command line, with combined letters, or with repeated options depends on all combinations of declarations and words", "anchors": ["kernel/Base/CommandLineOptions.cpp:CLOParser::go,parse_options", "kernel/Base/CommandLineOptions.h:register_argument,parse_argument,CommandLineOption", "kernel/Base/CommandLineHelpers.h:parsePoint"]}
{"id": "C66", "title": "The numerical fluxes of the applications are consistent with the equations and conservative", "statement": "For every gas (positive density and pressure) in any dimension and every normal, the flux between equal states is the flux of the Euler equations in the direction of the normal; between any two states it is defined, and exchanging the sides and turning the normal changes its sign only; when the averaged flow is supersonic it is the flux of the side where the flow comes from. The same holds for the inviscid flux of the compressible Navier-Stokes equations and for the fluxes of shallow granular flow on a line, in a channel and in a plane, also at dry places. Through a solid wall flow no mass and no energy. The integrands on a face, for any basis functions on both sides, contain that flux with opposite signs, so what leaves one element enters the other; inside an element every basis function meets the same flux of the equations.", "quantifier": "all states with positive density and pressure (all flows with non-negative height), all normals, all dimensions, all numbers and values of basis functions and coefficients on both sides", "why_tests_cant": "a test computes a few fluxes; a sign or a swapped average is invisible for symmetric or still states, and whether mass is conserved depends on all states on both sides of all faces", "anchors": ["applications/Euler/Euler_Impl.h:RoeRiemannFluxFunction,integrandRightHandSideOnFace,integrandRightHandSideOnElement", "applications/NavierStokes/CompressibleNavierStokes/Inviscid.cpp:RoeRiemannFluxFunction,integrandAtFace,integrandsAtFace", "applications/SavageHutter/SavageHutter1DBase.cpp:hllcFlux,integrandRightHandSideOnRefFace", "applications/SavageHutter/SavageHutter2DBase.cpp:hllcFlux,localLaxFriedrichsFlux,integrandRightHandSideOnRefFace", "applications/SavageHutter/HelperFunctions.h:getSolution"]}
{"id": "C67", "title": "A Gmsh file gives the mesh that it describes", "statement": "For every Gmsh file of version 2.2 that makes sense (nodes and elements counted from 1, known types of elements with their numbers of nodes, at least one tag), with any white space between the words and any of the three line ends, in any order of its sections and with unknown sections and lines between them, the reader gives: as dimension the highest one of its named groups and of the coordinates of its nodes; its nodes in their order, counted from 0, with that many coordinates; exactly its elements of that dimension, in their order, each with the right nodes in the order of the nodes of hpGEM and in the zone named by its group, or numbered by its tag or its value if there are no names; and its pairs of periodic nodes. The order of nodes of every type corresponds to that of Gmsh by an invertible affine map between the reference elements. Other versions and binary files are refused.", "quantifier": "all files of the format: all texts, white space, line ends, orders of sections, numbers of nodes, elements, names and pairs; all conversions of real numbers", "why_tests_cant": "a test reads a few files, all written by the same program with the same line ends and order of sections; names that are given twice, tags that differ from the names, empty sections and files without end of line are combinations that no set of files covers", "anchors": ["applications/Preprocessor/lib/gmsh.cpp:GmshReader,safeGetline,readHeader,readPhysicalNames,readNodes,readElements,readElementData,readPBCs,convertRawElements,pruneCoordinatesToDimension,skipSection,readSectionEnd", "applications/Preprocessor/lib/gmsh.h:GmshReader", "applications/Preprocessor/lib/ElementReorder.cpp:reorderToHpGem"]}
{"id": "C68", "title": "A structured mesh file gives the grid that it describes", "statement": "A file of the type structured with a number of cells, a low and a high end and a periodicity for every direction gives the preprocessor exactly that grid. In a rectangular mesh every cell is one element whose corners are at their places; corners at one place are one coordinate, corners that periodicity identifies are one node, and no coordinate or node is unused. In a triangular mesh of two or three dimensions the cells are cut into positively oriented simplices that fill them, neighbouring cells cut the side between them in the same way, and so do opposite cells of a periodic direction. Every element has a processor. Other versions and triangular meshes of other dimensions are refused.", "quantifier": "all files, numbers of directions, numbers of cells, ends, periodicities and layouts of the words", "why_tests_cant": "the numbering of nodes, their periodic copies and the turned tables of simplices depend on the whole path through the grid; a test sees a few sizes and misses that odd periodic meshes do not match", "anchors": ["applications/Preprocessor/lib/hpgem.cpp: HpgemReader, StructuredReader", "applications/Preprocessor/lib/MeshFactory.h: readFile", "applications/Preprocessor/lib/customIterator.h: Range, ActionIterator"]}
{"id": "C69", "title": "A Centaur file gives the mesh that it describes", "statement": "The reader of unformatted Fortran files returns every record exactly as it was written, skips exactly one record, reports its size without moving, and refuses a record of another size or with markers that do not match. On top of it a Centaur mesh gives all its nodes, and all its elements in their order, with the right node at every corner, however the entries are spread over lines; groups that are not needed are skipped as a whole; the periodic connections are the pairs that have a second node; and every element gets the name of its zone. This holds however the program was built.", "quantifier": "all files, records, numbers of entries and of entries per line, types of elements and zones, builds with and without assertions", "why_tests_cant": "whether the reader stays in step with the file depends on all sizes that were read before; tests run with assertions, and with meshes of one type of element, for which the wrong assignment of zones does not show", "anchors": ["applications/Preprocessor/lib/FortranUnformattedFile.cpp: readRawRecord, skipRecord, peekRecordSize, eof", "applications/Preprocessor/lib/centaur.cpp: readGroup, skipGroup, readCoordinates, readElements, reorderElementCoords, readPeriodicNodeConnections, readZoneInfo", "kernel/Logger.h: assert_debug"]}
{"id": "C70", "title": "A list of eigenpairs keeps its pairs together", "statement": "After any history of creating lists of eigenpairs, filling them from a solver, reserving space, reordering them again and again, moving them and destroying them, a list gives at every place the eigenvalue and the eigenvector of one and the same pair, in the order of all reorderings together, and nothing beyond its length. Each array of vectors is owned by one list only: none is freed twice, used after it was freed, or left when all lists are gone. Reserving more space does no harm to what has been loaded.", "quantifier": "all histories of calls on any number of lists, with all numbers of pairs and all orders", "why_tests_cant": "ownership of the vectors depends on the whole history of moves and loads; tests load a list once and reorder it once", "anchors": ["kernel/Utilities/Eigenpairs.h: Eigenpairs, getEigenvalue, getEigenvector", "kernel/Utilities/Eigenpairs.cpp: reserve, loadEigenpairs, reorder, operator=, ~Eigenpairs"]}
{"id": "C71", "title": "Vectors and points can be keys of maps and sets", "statement": "The comparison of vectors and points is a strict total order that agrees with ==, so that a map or a set finds a key exactly when it was inserted: for real and for complex entries, for vectors of which the size is in the type and for those of which it is not, whatever their sizes and entries are.", "quantifier": "all vectors of all sizes, with real or complex entries, including NaN", "why_tests_cant": "an order has to be transitive for all triples of vectors; tests compare a few pairs of one size", "anchors": ["kernel/LinearAlgebra/SmallVector.h: GSmallVector::operator<, GSmallVector::operator==, Detail::less", "kernel/LinearAlgebra/MiddleSizeVector.cpp: operator<", "kernel/Geometry/Point_Impl.h: operator<, operator=="]}
{"id": "C72", "title": "The walk through k-space visits the right points", "statement": "A walk through k-space goes along straight lines from corner to corner with equally many equal steps on each line: it has the stated number of points, each is where it should be, every corner is among them, each step is the difference of two points that follow each other, a computation that follows the walk gets each point once and in order, and a change of the step is reported exactly when there is one. Points beyond the end are refused. The standard walk goes around the cube, and the walk of a single step goes from the origin to the given point.", "quantifier": "all corners, numbers of steps and indices, builds with and without assertions", "why_tests_cant": "whether an index belongs to one line or to the next depends on its remainder by the number of steps; tests use few corners and steps", "anchors": ["applications/DG-Max/Utils/KSpacePath.cpp: totalNumberOfSteps, k, dk, dkDidChange, singleStepPath, cubePath", "applications/DG-Max/Programs/DGMaxEigen.cpp: DGMaxEigenDriver::stop, nextKPoint, getCurrentKPoint"]}
{"id": "C73", "title": "Descriptions of materials and layers mean what they say", "statement": "A text or file that describes materials gives every element the value of the first line of which the expression matches the name of its zone, in which empty lines do not matter and expressions may contain commas; an element that no line matches is refused, and so is every text with a line that is not an expression, a comma and a number. The description of an absorbing layer gives its name, directions and attenuations, or is refused. Splitting a text at a separator loses and invents nothing. A text that is no description at all is refused.", "quantifier": "all texts, separators, names of zones and dimensions, for every library of regular expressions and numbers", "why_tests_cant": "texts are unbounded, and where lines are empty, or end with a separator, or have several commas can be combined at will", "anchors": ["applications/DG-Max/DGMaxProgramUtils.cpp: readZonedDescription, determineStructureDescription, stringSplit, parsePMLZoneDescription", "applications/DG-Max/Utils/ZoneStructureDescription.cpp: createElementInfo", "kernel/Base/Zone.cpp: matchName"]}
{"id": "C74", "title": "The matrix of a periodic mesh has the right phases for every wave vector", "statement": "Applying the phase shifts of a wave vector to the global matrix of a periodic mesh multiplies each entry between two elements on both sides of the periodic boundary with the phase of the jump between them, and leaves the other entries alone. The result depends on the last wave vector only, however many were applied before; no wave vector gives the original matrix; a Hermitian matrix stays Hermitian. Processors that share a face do together what one would do, each for its own rows. This holds for every periodic mesh.", "quantifier": "all lists of blocks of all sizes, all wave vectors and histories of them, all matrices and distributions over processors", "why_tests_cant": "a phase that is left behind, or a storage that is reused, only shows after several wave vectors and blocks of different sizes; tests have meshes on which no two elements are neighbours twice", "anchors": ["applications/DG-Max/Utils/KPhaseShift.cpp: KPhaseShiftBlock::apply, KPhaseShifts::apply", "applications/DG-Max/Utils/MatrixBlocks.h: loadBlocks, insertBlocks", "applications/DG-Max/Utils/MatrixBlocks.cpp: insertBlock", "applications/DG-Max/Utils/FaceKPhaseShiftBuilder.cpp: build, facePhaseShift"]}
{"id": "C75", "title": "An absorbing layer belongs to the zone that was described", "statement": "When absorbing layers are described by the names of zones, an element gets a layer exactly if the name of its zone is described. The layer has the last description of that zone, and all elements of a zone share one layer. The box of a zone, from which the layer is built, runs from the least to the greatest coordinates of the nodes of the elements in that zone, over all processors, and is empty exactly if the zone has no nodes. This holds for every mesh, every list of descriptions and every distribution over processors.", "quantifier": "all meshes, all lists of zones and descriptions, all distributions of elements over processors", "why_tests_cant": "one array holds both numbers of descriptions and numbers of layers, told apart by their sign; a wrong one only shows for several zones in some order, or when the extreme node of a zone is on another processor", "anchors": ["applications/DG-Max/DGMaxProgramUtils.cpp: computeZoneBoundingBoxes, applyPMLs"]}
{"id": "C76", "title": "The test for Hermitian matrices accepts exactly the Hermitian matrices", "statement": "Without NaN in the matrix, the test whether a matrix is Hermitian says yes exactly if the matrix is square and every entry is, up to the tolerance, the conjugate of the opposite entry; with tolerance 0 these are the Hermitian matrices. It never reads outside of the matrix, also if that is not square or empty. This holds for matrices of every size.", "quantifier": "all matrices of all sizes without NaN, all tolerances", "why_tests_cant": "the test only visits the entries on and above the diagonal, and compares squares; a pair that is left out only shows for a matrix that is wrong at that place", "anchors": ["kernel/LinearAlgebra/MiddleSizeMatrix.cpp: isHermitian", "kernel/LinearAlgebra/MiddleSizeMatrix.h: operator()"]}
{"id": "C77", "title": "The text of a path through k-space is read as the points that it lists", "statement": "A text is accepted as a path exactly if it consists of points, each of as many numbers with commas between them as there are dimensions, with spaces or colons between them, perhaps after a number of steps and an @. The path then has these points in this order and that number of steps, or none. Every other text stops the program. This holds for every text and dimension.", "quantifier": "all texts, all dimensions, all behaviours of the reading of numbers that use up at least one character", "why_tests_cant": "a text that is read differently from what was meant gives another path and no message; there are infinitely many texts, and the reader has positions in the text that several functions move", "anchors": ["applications/DG-Max/DGMaxProgramUtils.cpp: parsePath", "kernel/Base/CommandLineHelpers.h: parsePoint"]}
{"id": "C78", "title": "Fluxes are summed over the right faces, in the same direction, on all processors", "statement": "The facet between two zones has exactly the faces between these zones, each with the side from which it leads from the zone with the smaller number to the other one or to the outside; each such face is in exactly one facet of the processor that owns it. The facets of all processors are numbered in lexicographical order without gaps, in the same way for every distribution of the mesh over processors. This holds for every mesh and number of zones.", "quantifier": "all meshes, all numbers of zones, all distributions of faces over processors", "why_tests_cant": "a face with the wrong side changes the sign of a part of the flux, which only shows for some numberings of zones; processors that number facets differently only show up for some distributions", "anchors": ["applications/DG-Max/Utils/FluxFacets.cpp: FluxFacets, getZoneIndexPair, generateZoneOrdering"]}
{"id": "C79", "title": "A material tensor acts as the diagonal matrix that it stands for", "statement": "A material tensor, given as one number or as three, multiplies every entry of a vector with that of the diagonal where it is applied for a divergence, and divides by it where it is applied for a curl, so that one undoes the other if no entry is 0; a curl in the plane counts as an entry in the third direction. Its adjoint is the adjoint for the Hermitian inner product. One number does the same as that number three times. This holds for all complex tensors and vectors.", "quantifier": "all complex tensors of both kinds, all vectors of at most three entries", "why_tests_cant": "an adjoint without conjugation, or the wrong direction for curls in the plane, does not show for real numbers or for tensors with equal entries, which most tests have", "anchors": ["applications/DG-Max/MaterialTensor.h: adjoint, applyDiv, applyCurl"]}
