-Q theories Verif
theories/Std_model.v
theories/Std_proofs.v
theories/Base64_model.v
theories/Base64_spec.v
theories/Base64_proofs.v
theories/Base64_theorems.v
theories/Reorder_model.v
theories/Reorder_spec.v
theories/Reorder_proofs.v
theories/Reorder_theorems.v
theories/UniqueIndex_model.v
theories/UniqueIndex_spec.v
theories/UniqueIndex_proofs.v
theories/UniqueIndex_theorems.v
theories/Lazy_model.v
theories/Lazy_spec.v
theories/Lazy_proofs.v
theories/Lazy_theorems.v
theories/LocalIndexing_model.v
theories/LocalIndexing_spec.v
theories/LocalIndexing_proofs.v
theories/LocalIndexing_theorems.v
theories/BasisPlaces_model.v
theories/BasisPlaces_spec.v
theories/BasisPlaces_proofs.v
theories/BasisPlaces_theorems.v
theories/Loop_model.v
theories/Loop_proofs.v
theories/Matrix_model.v
theories/Matrix_spec.v
theories/Matrix_proofs.v
theories/Matrix_theorems.v
theories/FaceMatrix_model.v
theories/FaceMatrix_spec.v
theories/FaceMatrix_proofs.v
theories/FaceMatrix_theorems.v
theories/ElementData_model.v
theories/ElementData_spec.v
theories/ElementData_proofs.v
theories/ElementData_theorems.v
theories/Determinant_model.v
theories/Determinant_spec.v
theories/Determinant_proofs.v
theories/Determinant_theorems.v
theories/StdMap_model.v
theories/StdMap_proofs.v
theories/UnionFind_model.v
theories/UnionFind_spec.v
theories/UnionFind_proofs.v
theories/UnionFind_theorems.v
theories/Tableau_model.v
theories/Tableau_spec.v
theories/Tableau_proofs.v
theories/Tableau_theorems.v
theories/TimeStep_model.v
theories/TimeStep_spec.v
theories/TimeStep_proofs.v
theories/TimeStep_theorems.v
theories/GlobalIndexing_model.v
theories/GlobalIndexing_spec.v
theories/GlobalIndexing_proofs.v
theories/GlobalIndexing_theorems.v
theories/IndexExchange_model.v
theories/IndexExchange_spec.v
theories/IndexExchange_proofs.v
theories/IndexExchange_theorems.v
theories/LevelTree_model.v
theories/LevelTree_spec.v
theories/LevelTree_proofs.v
theories/LevelTree_theorems.v
theories/Derivative.v
theories/RefGeometry_model.v
theories/RefGeometry_spec.v
theories/RefGeometry_proofs.v
theories/RefGeometry_theorems.v
theories/Curvilinear_model.v
theories/Curvilinear_spec.v
theories/Curvilinear_proofs.v
theories/Curvilinear_theorems.v
theories/PhysMapping_model.v
theories/PhysMapping_spec.v
theories/PhysMapping_proofs.v
theories/PhysInverse_proofs.v
theories/PhysQuadratic_proofs.v
theories/PhysNewton_proofs.v
theories/PhysNewton_theorems.v
theories/FaceGeometry_model.v
theories/FaceGeometry_spec.v
theories/FaceGeometry_proofs.v
theories/FaceGeometry_theorems.v
theories/FaceSides_proofs.v
theories/FaceSides_theorems.v
theories/Legendre_model.v
theories/Legendre_spec.v
theories/Legendre_proofs.v
theories/Legendre_theorems.v
theories/BasisFunctions_model.v
theories/BasisFunctions_spec.v
theories/BasisFunctions_proofs.v
theories/BasisFunctions_theorems.v
theories/BasisSets_model.v
theories/BasisSets_spec.v
theories/BasisSets_proofs.v
theories/BasisSets_theorems.v
theories/BasisSizes_spec.v
theories/BasisSizes_proofs.v
theories/BasisSizes_theorems.v
theories/Conformity_spec.v
theories/Conformity_proofs.v
theories/Conformity_theorems.v
theories/ConformitySides_proofs.v
theories/FreeFamilies_proofs.v
theories/IndependenceSets_proofs.v
theories/IndependenceDG_proofs.v
theories/IndependenceRefuted_proofs.v
theories/IndependenceMore_proofs.v
theories/IndependenceConforming_proofs.v
theories/Independence_spec.v
theories/Independence_proofs.v
theories/Independence_theorems.v
theories/QuadCache_model.v
theories/QuadCache_spec.v
theories/QuadCache_proofs.v
theories/QuadCache_theorems.v
theories/PhysicalElement_model.v
theories/PhysicalElement_spec.v
theories/PhysicalElement_proofs.v
theories/PhysicalElement_theorems.v
theories/PhysicalElementRefuted_proofs.v
theories/PreShapes_model.v
theories/PreMeshShare_proofs.v
theories/PreMeshMore_proofs.v
theories/MergePlanMore_proofs.v
theories/PreMesh_model.v
theories/PreMesh_spec.v
theories/PreMesh_proofs.v
theories/PreMesh_theorems.v
theories/MergePlan_model.v
theories/MergePlan_spec.v
theories/MergePlan_proofs.v
theories/MergePlan_theorems.v
theories/SubmeshMore_proofs.v
theories/Sync_model.v
theories/Sync_proofs.v
theories/Submesh_model.v
theories/Submesh_spec.v
theories/Submesh_proofs.v
theories/Submesh_theorems.v
theories/Quadrature_model.v
theories/Quadrature_spec.v
theories/Quadrature_proofs.v
theories/Quadrature_theorems.v
theories/QuadIntegral_proofs.v
theories/QuadInterval_proofs.v
theories/QuadRules_proofs.v
theories/QuadChecks_proofs.v
theories/Limiter_model.v
theories/Limiter_spec.v
theories/Limiter_proofs.v
theories/Limiter_theorems.v
theories/LimiterHeight_proofs.v
theories/LimiterSlope_proofs.v
theories/LimiterExamples_proofs.v
theories/Sparsity_model.v
theories/Sparsity_spec.v
theories/Sparsity_proofs.v
theories/Sparsity_theorems.v
theories/SparsityLoop_proofs.v
theories/SparsityCount_proofs.v
theories/SparsityMain_proofs.v
theories/SparsityExamples_proofs.v
theories/CurlBasis_model.v
theories/CurlBasis_spec.v
theories/CurlBasis_proofs.v
theories/CurlBasis_theorems.v
theories/CurlTraces_proofs.v
theories/CurlSizes_proofs.v
theories/CurlIndependence_proofs.v
theories/CurlAinsworth_proofs.v
theories/CurlFree_proofs.v
theories/CurlPlane_proofs.v
theories/CurlDegree_proofs.v
theories/BasisDegree_spec.v
theories/BasisDegree_proofs.v
theories/BasisDegree_theorems.v
theories/Transformation_model.v
theories/Transformation_spec.v
theories/Transformation_proofs.v
theories/Transformation_theorems.v
theories/PhysicalFace_model.v
theories/PhysicalFace_spec.v
theories/PhysicalFace_proofs.v
theories/PhysicalFace_theorems.v
theories/PhysicalFaceRefuted_proofs.v
theories/FaceRotation_model.v
theories/FaceRotation_spec.v
theories/FaceRotation_proofs.v
theories/FaceRotation_theorems.v
theories/FaceRotationCalculus_proofs.v
theories/VTKElements_model.v
theories/VTKElements_spec.v
theories/VTKElements_proofs.v
theories/VTKElements_theorems.v
theories/VTKSimplex_proofs.v
theories/VTKTetra_proofs.v
theories/VTKDistinct_proofs.v
theories/VTKWriter_model.v
theories/VTKWriter_spec.v
theories/VTKWriter_proofs.v
theories/VTKWriter_theorems.v
theories/VTKFields_proofs.v
theories/GlobalVector_model.v
theories/GlobalVector_spec.v
theories/GlobalVector_proofs.v
theories/GlobalVector_theorems.v
theories/GlobalVectorWrite_proofs.v
theories/GlobalVectorOne_proofs.v
theories/GlobalVectorExamples_proofs.v
theories/GlobalMatrix_model.v
theories/GlobalMatrix_spec.v
theories/GlobalMatrix_proofs.v
theories/GlobalMatrix_theorems.v
theories/GlobalMatrixBoundary_proofs.v
theories/GlobalMatrixTables_proofs.v
theories/MeshFile_model.v
theories/MeshFile_spec.v
theories/MeshFile_proofs.v
theories/MeshFile_theorems.v
theories/MeshFileRead_proofs.v
theories/MeshFileFaces_proofs.v
theories/MeshFileMarks_proofs.v
theories/MeshFileCopy_proofs.v
theories/MeshFileGood_proofs.v
theories/MeshFileExamples.v
theories/Integral_model.v
theories/Integral_spec.v
theories/Integral_proofs.v
theories/Integral_theorems.v
theories/IntegralFace_proofs.v
theories/CommandLine_model.v
theories/CommandLine_spec.v
theories/CommandLine_proofs.v
theories/CommandLine_theorems.v
theories/CommandLineLoop_proofs.v
theories/CommandLineEnd_proofs.v
theories/Flux_model.v
theories/Flux_spec.v
theories/Flux_proofs.v
theories/Flux_theorems.v
theories/FluxRoe_proofs.v
theories/FluxFace_proofs.v
theories/FluxShallow_proofs.v
theories/FluxEnd_proofs.v
theories/FluxWave_proofs.v
theories/Gmsh_model.v
theories/Gmsh_spec.v
theories/Gmsh_proofs.v
theories/Gmsh_theorems.v
theories/GmshSections_proofs.v
theories/GmshFile_proofs.v
theories/GmshOrder_spec.v
theories/GmshOrder_theorems.v
theories/Structured_model.v
theories/Structured_spec.v
theories/Structured_proofs.v
theories/Structured_theorems.v
theories/StructuredCells_proofs.v
theories/StructuredCut_proofs.v
theories/StructuredFile_proofs.v
theories/Centaur_model.v
theories/Centaur_spec.v
theories/Centaur_proofs.v
theories/Centaur_theorems.v
theories/CentaurZones_proofs.v
theories/Eigenpairs_model.v
theories/Eigenpairs_spec.v
theories/Eigenpairs_proofs.v
theories/Eigenpairs_theorems.v
theories/VectorOrder_model.v
theories/VectorOrder_spec.v
theories/VectorOrder_proofs.v
theories/VectorOrder_theorems.v
theories/KSpacePath_model.v
theories/KSpacePath_spec.v
theories/KSpacePath_proofs.v
theories/KSpacePath_theorems.v
theories/Materials_model.v
theories/Materials_spec.v
theories/Materials_proofs.v
theories/Materials_theorems.v
theories/PhaseShift_model.v
theories/PhaseShift_spec.v
theories/PhaseShift_proofs.v
theories/PhaseShift_theorems.v
theories/Layers_model.v
theories/Layers_spec.v
theories/Layers_proofs.v
theories/Layers_theorems.v
theories/Hermitian_model.v
theories/Hermitian_spec.v
theories/Hermitian_proofs.v
theories/Hermitian_theorems.v
theories/PathText_model.v
theories/PathText_spec.v
theories/PathText_proofs.v
theories/PathText_theorems.v
theories/Facets_model.v
theories/Facets_spec.v
theories/Facets_proofs.v
theories/Facets_theorems.v
theories/FacetFlux_model.v
theories/FacetFlux_proofs.v
theories/FacetFlux_theorems.v
theories/Tensor_model.v
theories/Tensor_spec.v
theories/Tensor_theorems.v
