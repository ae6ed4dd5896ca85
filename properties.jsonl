{"id": "C01", "title": "Free unknowns are numbered 0..NumberDOFs-1 exactly once", "statement": "After CreateDOFs_kD succeeds (k=0..3), the Global_Index values of the entries of CellsDOFs whose Type is DOF, taken over all cells of all dimensions <= k, are exactly 0,1,...,NumberDOFs-1 with no repetition and no gap, so they can be used as the row/column numbers of the global system.", "quantifier": "every mesh size, every per-cell DOF count, every assignment of boundary types, every k", "why_tests_cant": "Tests fix a few meshes and marker maps; a repeated or skipped number only shows up for particular mixtures of boundary types and zero-DOF cells.", "anchors": ["PolyDiM/src/PDETools/DOFs/DOFsManager.cpp:CreateCellDOFs", "PolyDiM/src/PDETools/DOFs/DOFsManager.hpp:CreateDOFs_0D,CreateDOFs_1D,CreateDOFs_2D,CreateDOFs_3D"]}
{"id": "C02", "title": "Strong (Dirichlet) unknowns are numbered 0..NumberStrongs-1 exactly once", "statement": "After CreateDOFs_kD succeeds, the Global_Index values of the entries of CellsDOFs whose Type is Strong are exactly 0..NumberStrongs-1, each once.", "quantifier": "every mesh size, per-cell DOF count, boundary type assignment, every k", "why_tests_cant": "Same as C01: depends on the interleaving of the two running counters over arbitrary cell sequences.", "anchors": ["PolyDiM/src/PDETools/DOFs/DOFsManager.cpp:CreateCellDOFs", "PolyDiM/src/PDETools/DOFs/DOFsManager.hpp:CreateDOFs_kD"]}
{"id": "C03", "title": "The DOF counters add up", "statement": "After CreateDOFs_kD: NumberDOFs = NumberInternalDOFs + NumberBoundaryDOFs; NumberDOFs + NumberStrongs equals the sum of the requested CellsNumDOFs over all cells of dimension <= k; NumberInternalDOFs counts exactly the DOFs of cells marked None, NumberBoundaryDOFs those of cells marked Weak or Robin, NumberStrongs those of cells marked Strong.", "quantifier": "every mesh DOFs info of every size", "why_tests_cant": "A conservation law over arbitrarily long histories of counter updates.", "anchors": ["PolyDiM/src/PDETools/DOFs/DOFsManager.cpp:CreateCellDOFs"]}
{"id": "C04", "title": "Each cell gets the number and the type of DOFs that were asked for", "statement": "After CreateDOFs_kD, for every dimension d<=k and every d-cell c: CellsDOFs[d][c] has CellsNumDOFs[d][c] entries; they are all Strong when the boundary type of the cell is Strong and all of type DOF otherwise; CellsNumberDOFs/CellsNumberStrongs are the number of entries of each type; CellsHasInternalDOFs / CellsHasBoundaryDOFs say whether the cell is None / (Weak or Robin).", "quantifier": "every cell of every mesh DOFs info", "why_tests_cant": "Universally quantified over cells and boundary assignments.", "anchors": ["PolyDiM/src/PDETools/DOFs/DOFsManager.cpp:CreateCellDOFs"]}
{"id": "C05", "title": "The closure list of a cell is vertices, then edges, then faces, then its own DOFs", "statement": "After CreateDOFs_kD, CellsGlobalDOFs[d][c] lists, in this order and without holes, all DOFs of the cell's vertices (in connectivity order), then of its edges, then of its faces, then its own; each entry (Dimension, CellIndex, DOFIndex) designates an existing entry of CellsDOFs; the number of entries written is exactly the number of entries allocated.", "quantifier": "every mesh connectivity (any number of vertices/edges/faces per cell), every DOFs info, every cell", "why_tests_cant": "Layout must be right for arbitrary polygons/polyhedra; the list is filled through a running position into a pre-sized vector, so a mismatch is undefined behaviour for some connectivity.", "anchors": ["PolyDiM/src/PDETools/DOFs/DOFsManager.cpp:ConcatenateGlobalDOFs", "PolyDiM/src/PDETools/DOFs/DOFsManager.hpp:CreateCell0DDOFs,CreateCell1DDOFs,CreateCell2DDOFs,CreateCell3DDOFs"]}
{"id": "C06", "title": "Conformity: neighbouring cells see the same unknown on a shared entity and distinct unknowns elsewhere", "statement": "If two cells list the same (dimension, cell, dof) entity in their closures they resolve it to the same Type and Global_Index; conversely if two closure entries (of any two cells) resolve to the same Type and Global_Index then they are the same (dimension, cell, dof).", "quantifier": "every pair of cells and every pair of closure positions of every mesh", "why_tests_cant": "A relational property over pairs of cells of an arbitrary mesh.", "anchors": ["PolyDiM/src/PDETools/DOFs/DOFsManager.hpp:CreateCell1DDOFs,CreateCell2DDOFs,CreateCell3DDOFs", "PolyDiM/src/PDETools/DOFs/DOFsManager.cpp:CreateCellDOFs"]}
{"id": "C07", "title": "Per-cell global counts agree with the closure list", "statement": "After CreateDOFs_kD, for each cell c of dimension d<=k, CellsGlobalNumberDOFs[d][c] is the number of closure entries of c that resolve to Type DOF and CellsGlobalNumberStrongs[d][c] the number that resolve to Type Strong; their sum is the length of the closure list.", "quantifier": "every cell of every mesh", "why_tests_cant": "Two independently maintained tallies over arbitrary connectivity.", "anchors": ["PolyDiM/src/PDETools/DOFs/DOFsManager.hpp:CreateCell0DDOFs..CreateCell3DDOFs"]}
{"id": "C08", "title": "ComputeCellsDOFsIndices splits the closure of every cell without loss", "statement": "ComputeCellsDOFsIndices(dofs,k) returns, for each cell, increasing local positions of the free and of the strong unknowns; the two position lists together are a permutation of 0..n-1 (n the closure size), and the i-th global index returned is the Global_Index of the closure entry at the i-th local position.", "quantifier": "every cell of every DOFs data produced by CreateDOFs_kD", "why_tests_cant": "Must hold for every interleaving of strong and free entries.", "anchors": ["PolyDiM/src/PDETools/DOFs/DOFsManager.cpp:ComputeCellsDOFsIndices"]}
{"id": "C09", "title": "DOF creation fails loudly, never silently, on bad boundary information", "statement": "CreateDOFs_kD throws if some cell of dimension <=k has an Unknown boundary type or no boundary info entry, or if the connectivity refers to a vertex/edge/face that does not exist; otherwise it succeeds.", "quantifier": "every DOFs info and connectivity, valid or not", "why_tests_cant": "The set of malformed inputs is unbounded; tests only exercise a few.", "anchors": ["PolyDiM/src/PDETools/DOFs/DOFsManager.cpp:CreateCellDOFs", "PolyDiM/src/PDETools/DOFs/DOFsManager.hpp:CreateCell1DDOFs,CreateCell2DDOFs,CreateCell3DDOFs"]}
{"id": "C10", "title": "The CellsGlobalHas*DOFs flags describe the closure entities one dimension down, and only those", "statement": "For d>=1, CellsGlobalHasInternalDOFs[d][c] (resp. Boundary) is true iff the closure of c contains a (d-1)-dimensional cell whose own CellsHasInternalDOFs (resp. Boundary) flag is set. The stronger reading a user may expect (true iff any cell of the closure, c included, has its flag set) is false: there is a mesh where c itself has internal DOFs and the flag is false.", "quantifier": "every cell of every mesh", "why_tests_cant": "Needs all connectivity patterns; (found false in general: only the entities of dimension d-1 are looked at).", "anchors": ["PolyDiM/src/PDETools/DOFs/DOFsManager.hpp:CreateCell1DDOFs,CreateCell2DDOFs,CreateCell3DDOFs"]}
{"id": "C11", "title": "Create_Constant_DOFsInfo gives every cell the constant count and the info of its own marker", "statement": "Create_Constant_DOFsInfo_kD returns, for d<=k, CellsNumDOFs[d] of length the number of d-cells filled with NumDOFs[d], and CellsBoundaryInfo[d][c] equal to the map entry of the marker of cell c; it throws iff some marker of a cell of dimension <=k is not in the map.", "quantifier": "every mesh, marker assignment and boundary map", "why_tests_cant": "All markers / all maps.", "anchors": ["PolyDiM/src/PDETools/DOFs/DOFsManager.hpp:Create_Constant_DOFsInfo_0D..3D"]}
{"id": "C12", "title": "count_dofs packs the handlers' numberings into disjoint consecutive blocks", "statement": "For a non-empty list of DOFs data, count_dofs returns totals that are the sums of the handlers' counters, and offsets such that (handler h, index i<NumberDOFs_h) -> offsets_DOFs[h]+i is a bijection onto 0..num_total_dofs-1; likewise for strongs. On an empty list the call is undefined behaviour.", "quantifier": "every list of DOFs data", "why_tests_cant": "Any number of handlers with any sizes (including zero).", "anchors": ["PolyDiM/src/PDETools/Assembler/Assembler_Utilities.hpp:count_dofs"]}
{"id": "C13", "title": "local_count_dofs packs the handlers' local unknowns into disjoint consecutive blocks", "statement": "For a non-empty list of DOFs data and an existing cell, local_count_dofs returns the total number of closure entries and offsets such that (handler h, local i) -> offsets_DOFs[h]+i is a bijection onto 0..num_total_dofs-1; it throws if the cell does not exist in some handler.", "quantifier": "every list of DOFs data, every cell", "why_tests_cant": "Any number of handlers with any closure sizes.", "anchors": ["PolyDiM/src/PDETools/Assembler/Assembler_Utilities.hpp:local_count_dofs"]}
{"id": "C14", "title": "global_solution_to_local_solution restricts the global solution to the cell", "statement": "With the offsets of local_count_dofs/count_dofs, entry offsets[h]+i of the returned vector is the value of the global strong vector (if closure entry i of handler h is Strong) or of the global free vector (if it is DOF) at the entry's Global_Index plus the handler's global offset; no other entry is touched and no index is out of range when the global vectors have the counted sizes.", "quantifier": "every cell, handler list, pair of global vectors", "why_tests_cant": "Must hold for any interleaving and any number of handlers.", "anchors": ["PolyDiM/src/PDETools/Assembler/Assembler_Utilities.hpp:global_solution_to_local_solution"]}
{"id": "C15", "title": "Assembly adds every local entry exactly once at the position of its unknowns", "statement": "After assembling local matrices and right-hand sides over any list of cells, entry (r,s) of the free-free matrix is the sum of all local entries (i,j) whose test unknown i is free with global number r and whose trial unknown j is free with global number s; likewise the free-strong matrix; entry r of the right-hand side is the sum of the local rhs entries i with free global number r; rows of strong test unknowns contribute nothing.", "quantifier": "every sequence of cells, every local matrix, any number of test and trial handlers", "why_tests_cant": "Sum over unbounded histories of Triplet/AddValue calls.", "anchors": ["PolyDiM/src/PDETools/Assembler/Assembler_Utilities.hpp:assemble_local_matrix_to_global_matrix"]}
{"id": "C16", "title": "The assembled operator is the sum of the local operators applied to the restricted solution", "statement": "For all global vectors (u_free,u_strong): A_free*u_free + A_strong*u_strong, row r, equals the sum over the assembled cells and over the local free test unknowns i numbered r of (A_loc * u_loc)_i, where u_loc = global_solution_to_local_solution of the cell.", "quantifier": "all cell lists, local matrices, global vectors", "why_tests_cant": "Relates three functions over all inputs; the basis of correctness of the boundary lifting.", "anchors": ["PolyDiM/src/PDETools/Assembler/Assembler_Utilities.hpp:assemble_local_matrix_to_global_matrix,global_solution_to_local_solution"]}
{"id": "C17", "title": "Assembly does not depend on the order of the cells", "statement": "Assembling the same cells in any other order gives the same matrices and right-hand side.", "quantifier": "every permutation of every list of cells", "why_tests_cant": "Factorially many orders.", "anchors": ["PolyDiM/src/PDETools/Assembler/Assembler_Utilities.hpp:assemble_local_matrix_to_global_matrix", "PolyDiM/src/PDETools/Assembler/assembler_PCC_2D_functions.cpp:assemble_elliptic_operator"]}
{"id": "C18", "title": "Symmetric local matrices give a symmetric global free-free matrix", "statement": "If test and trial data coincide and every local matrix is symmetric, the assembled free-free matrix is symmetric; if every local matrix is positive semidefinite so is the assembled matrix.", "quantifier": "every mesh, local matrices", "why_tests_cant": "All meshes and matrices.", "anchors": ["PolyDiM/src/PDETools/Assembler/Assembler_Utilities.hpp:assemble_local_matrix_to_global_matrix"]}
{"id": "C19", "title": "Sparse matrix data round trip", "statement": "Converting a sparse array to Sparse_Matrix_Data and back yields the same matrix (entry by entry), with the same size; duplicates are summed.", "quantifier": "every sparse array of every size", "why_tests_cant": "All sparsity patterns.", "anchors": ["PolyDiM/src/PDETools/Assembler/assembler_PCC_2D_functions_utilities.cpp:to_Sparse_Matrix_Data,to_Eigen_SparseArray,to_triplets"]}
{"id": "C20", "title": "Shifted / transposed sparse conversion places the block where asked", "statement": "The shifting overload of to_Eigen_SparseArray returns the new_size matrix whose entry (i+row_shift, j+col_shift) - or (j+col_shift, i+row_shift) when the transpose is requested - is entry (i,j) of the input data (duplicates summed) and all other entries are zero, whenever all shifted entries fit.", "quantifier": "every sparse array, shifts, sizes, transpose flag", "why_tests_cant": "All shifts and patterns; the order of shifting and transposing matters.", "anchors": ["PolyDiM/src/PDETools/Assembler/assembler_PCC_2D_functions_utilities.cpp:to_Sparse_Matrix_Data"]}
{"id": "C21", "title": "Local elliptic matrices are the quadrature of the bilinear forms", "statement": "ComputeCellDiffusionMatrix (scalar and tensor), ComputeCellReactionMatrix, ComputeCellAdvectionMatrix and ComputeCellForcingTerm return, entry (i,j), the weighted sum over quadrature points of k grad(phi_j).grad(phi_i), (K grad phi_j).grad phi_i with K stored column-major, c phi_j phi_i, (b.grad phi_j) phi_i, f phi_i.", "quantifier": "any number of basis functions, quadrature points, any values", "why_tests_cant": "All sizes and values.", "anchors": ["PolyDiM/src/PDETools/Equations/EllipticEquation.hpp:ComputeCellDiffusionMatrix,ComputeCellReactionMatrix,ComputeCellAdvectionMatrix,ComputeCellForcingTerm"]}
{"id": "C22", "title": "Diffusion and reaction matrices are symmetric positive semidefinite", "statement": "With trial = test, non-negative weights and coefficient, the diffusion and reaction local matrices are symmetric and x^T A x >= 0 for every x; with a symmetric tensor coefficient the tensor diffusion matrix is symmetric, and positive semidefinite when the tensor is.", "quantifier": "all sizes, values, vectors x", "why_tests_cant": "Real-valued quantifier over all vectors.", "anchors": ["PolyDiM/src/PDETools/Equations/EllipticEquation.hpp:ComputeCellDiffusionMatrix,ComputeCellReactionMatrix"]}
{"id": "C23", "title": "Constants are in the kernel of diffusion and advection", "statement": "If the trial basis functions sum to one (their derivatives sum to zero at every quadrature point), each row of the diffusion and advection matrices sums to zero.", "quantifier": "all sizes, values", "why_tests_cant": "All sizes and values.", "anchors": ["PolyDiM/src/PDETools/Equations/EllipticEquation.hpp:ComputeCellDiffusionMatrix,ComputeCellAdvectionMatrix"]}
{"id": "C24", "title": "Navier-Stokes convective operators are the exact Newton linearisation", "statement": "Let N(u) be compute_NS_convective_rhs evaluated at the velocity with local unknowns u and C(u) be compute_NS_convective_lhs at u. Then N(u+d) = N(u) + C(u) d + N(d) for all u,d; in particular C(u)u = 2N(u).", "quantifier": "all numbers of basis functions and points, all values, all u,d", "why_tests_cant": "Algebraic identity over all real inputs.", "anchors": ["PolyDiM/src/PDETools/Assembler/assembler_PCC_2D_functions.cpp:compute_NS_convective_lhs,compute_NS_convective_rhs,assemble_NS_operators"]}
{"id": "C25", "title": "Error norms are norms of the error", "statement": "compute_error_L2/H1 with non-negative quadrature weights: the error is 0 when the discrete solution equals the exact one at all quadrature points, the global value squared is the sum of the cell values, and the three values satisfy the triangle inequality numeric_norm <= exact_norm + error.", "quantifier": "all meshes, solutions, exact functions", "why_tests_cant": "All real inputs (Minkowski inequality over an unbounded sum).", "anchors": ["PolyDiM/src/PDETools/Assembler/assembler_PCC_2D_functions.cpp:compute_error_L2,compute_error_H1"]}
{"id": "C26", "title": "Strong boundary values are written where gather reads them", "statement": "assemble_strong_solution writes, for every active cell and every Strong vertex (and, for order>1, Strong edge) unknown, the boundary function evaluated with the entity's marker at the unknown's point; on a vertex shared by several cells all writes agree, hence global_solution_to_local_solution returns these values on every cell.", "quantifier": "every mesh, DOFs data, boundary function", "why_tests_cant": "Depends on history of SetValue calls on shared entities.", "anchors": ["PolyDiM/src/PDETools/Assembler/assembler_PCC_2D_functions.cpp:assemble_strong_solution"]}
{"id": "C27", "title": "Monomials are enumerated exactly once, by degree", "statement": "Monomials_{1D,2D,3D}.Compute(k) lists every exponent tuple of total degree <= k exactly once, ordered by non-decreasing degree, and NumMonomials is k+1, (k+1)(k+2)/2, (k+1)(k+2)(k+3)/6 which is the length of the list.", "quantifier": "every polynomial degree k and every exponent tuple", "why_tests_cant": "Unbounded degree; the enumeration is produced by an iterative successor rule.", "anchors": ["PolyDiM/src/Utilities/Monomials_1D.cpp:Compute", "PolyDiM/src/Utilities/Monomials_2D.cpp:Compute", "PolyDiM/src/Utilities/Monomials_3D.cpp:Compute"]}
{"id": "C28", "title": "Index is the inverse of the enumeration", "statement": "Monomials.Index(Exponents[i]) = i for every i < NumMonomials, and Exponents[Index(e)] = e for every tuple e of non-negative exponents with degree <= k; Index returns -1 iff some exponent is negative.", "quantifier": "every degree, index, exponent tuple", "why_tests_cant": "Unbounded degree; closed-form index arithmetic vs iterative enumeration.", "anchors": ["PolyDiM/src/Utilities/Monomials_1D.cpp:Index", "PolyDiM/src/Utilities/Monomials_2D.cpp:Index", "PolyDiM/src/Utilities/Monomials_3D.cpp:Index"]}
{"id": "C29", "title": "DerivativeIndices / SecondDerivativeIndices point to the differentiated monomials", "statement": "DerivativeIndices(i)[d] is the index of the monomial with exponent d lowered by one when that exponent is positive and -1 (no index) otherwise; SecondDerivativeIndices(i)[d] is the index with exponent d lowered by two, when it is at least two.", "quantifier": "every degree and monomial", "why_tests_cant": "Closed-form index arithmetic for unbounded degree.", "anchors": ["PolyDiM/src/Utilities/Monomials_1D.cpp:DerivativeIndices,SecondDerivativeIndices", "PolyDiM/src/Utilities/Monomials_2D.cpp:DerivativeIndices,SecondDerivativeIndices", "PolyDiM/src/Utilities/Monomials_3D.cpp:DerivativeIndices,SecondDerivativeIndices"]}
{"id": "C30", "title": "Derivative and Laplacian matrices represent differentiation", "statement": "For the matrices D_j and Lap returned by Compute(k): for every i, the partial derivative in direction j (resp. the Laplacian) of monomial i is the combination of monomials with the coefficients of row i of D_j (resp. Lap).", "quantifier": "every degree, monomial, point", "why_tests_cant": "Analytic identity at every point for unbounded degree.", "anchors": ["PolyDiM/src/Utilities/Monomials_1D.cpp:Compute", "PolyDiM/src/Utilities/Monomials_2D.cpp:Compute", "PolyDiM/src/Utilities/Monomials_3D.cpp:Compute"]}
{"id": "C31", "title": "Vander evaluates the scaled monomials", "statement": "Vander(points, centroid, diam)(p,i) is the product over d of ((x_d-c_d)/diam)^(e_d) with e the i-th exponents; the first column is 1.", "quantifier": "every degree, point set, centroid, non-zero diameter", "why_tests_cant": "All points and degrees.", "anchors": ["PolyDiM/src/Utilities/Monomials_Utilities.hpp:Vander"]}
{"id": "C32", "title": "VanderDerivatives are the true partial derivatives", "statement": "VanderDerivatives(...)[d](p,i) is the partial derivative with respect to x_d of the i-th scaled monomial at point p.", "quantifier": "every degree, point, centroid, diameter", "why_tests_cant": "Limit statement at all points.", "anchors": ["PolyDiM/src/Utilities/Monomials_Utilities.hpp:VanderDerivatives"]}
{"id": "C33", "title": "VanderLaplacian is the true Laplacian, except in 1D, when there are three monomials or more", "statement": "With at least three monomials, VanderLaplacian(...)(p,i) is the Laplacian of the i-th scaled monomial at point p, except for the column of x^2 in one dimension, which is never the Laplacian; with fewer than three monomials (degree 0, or degree 1 in one dimension) the call is undefined.", "quantifier": "every dimension, degree, point, centroid, diameter", "why_tests_cant": "Limit statement at all points; (found false in 1D, and undefined for fewer than three monomials).", "anchors": ["PolyDiM/src/Utilities/Monomials_Utilities.hpp:VanderLaplacian"]}
{"id": "C34", "title": "2D vector-polynomial decomposition of GBasis_2D is exact", "statement": "For every monomial m_j of degree <= k, (m_j,0) and (0,m_j) equal the gradient combination plus (y,-x) times the polynomial given by the j-th rows of VectorDecomposition[0] and [1], at every point.", "quantifier": "every degree k, monomial j, point", "why_tests_cant": "Polynomial identity for unbounded degree over all points.", "anchors": ["PolyDiM/src/Utilities/GBasis_2D.cpp:Compute,VectorDecompositionIndices"]}
{"id": "C35", "title": "3D vector-polynomial decomposition of GBasis_3D is exact", "statement": "For every monomial m_j of degree <= k and each component i, m_j e_i equals the gradient part plus the three groups x^m-type fields ((0,z,-y), (-z,0,x), (y,-x,0) times monomials) with the coefficients of VectorDecomposition[i], at every point; and VanderGBigOPlus evaluates those fields.", "quantifier": "every degree k, monomial j, component i, point", "why_tests_cant": "Polynomial identity for unbounded degree; index maps built by tables.", "anchors": ["PolyDiM/src/Utilities/GBasis_3D.cpp:Compute,VectorDecompositionIndices,VanderGBigOPlus"]}
{"id": "C36", "title": "Lagrange basis is nodal", "statement": "For pairwise distinct interpolation points x_0..x_{n-1}, the value of basis function i at x_j computed from Lagrange_1D_coefficients/Lagrange_1D_values is 1 if i=j and 0 otherwise.", "quantifier": "every n, every set of distinct points", "why_tests_cant": "All point sets of all sizes.", "anchors": ["PolyDiM/src/Interpolation/lagrange_1D.cpp:Lagrange_1D_coefficients,Lagrange_1D_values"]}
{"id": "C37", "title": "Lagrange interpolation reproduces polynomials", "statement": "For pairwise distinct points, sum_i p(x_i) L_i(x) = p(x) for every polynomial p of degree < n and every x; in particular the basis sums to one.", "quantifier": "every n>=1, point set, polynomial, x", "why_tests_cant": "Needs root counting for polynomials of unbounded degree.", "anchors": ["PolyDiM/src/Interpolation/lagrange_1D.cpp:Lagrange_1D_values"]}
{"id": "C38", "title": "Lagrange derivative values are the true derivatives", "statement": "Lagrange_1D_derivative_values(x) column i is the derivative at x of the function given by Lagrange_1D_values column i.", "quantifier": "every n, point set, x", "why_tests_cant": "Limit statement at all points.", "anchors": ["PolyDiM/src/Interpolation/lagrange_1D.cpp:Lagrange_1D_derivative_values"]}
{"id": "C39", "title": "Inertia mapping is invertible with the reported determinant", "statement": "Given an orthogonal eigenvector matrix and positive eigenvalues, positive diameters, InertiaMapping2D/3D return Fmatrix*FmatrixInv = I = FmatrixInv*Fmatrix, and absDetFmatrix equals |det Fmatrix| (of the 2x2 block in 2D, of the 3x3 matrix in 3D), > 0; translation is the centroid; the mapped element has isotropic second moments about the mapped centroid (a positive multiple of the identity). signDetQ is 1 only if det > 0, but (negative finding) a determinant between 0 and 1e-12 (times the scaling) is reported as -1.", "quantifier": "all orthogonal Q, positive eigenvalues, diameters", "why_tests_cant": "All real inputs.", "anchors": ["PolyDiM/src/Utilities/Inertia_Utilities.cpp:InertiaMapping2D,InertiaMapping3D"]}
{"id": "C40", "title": "1D element: dof positions and basis", "statement": "FEM_PCC_1D_ReferenceElement.Create(order): NumDofs0D*2+NumDofs1D = NumBasisFunctions = order+1 for order>=1; dof positions are first end point, last end point, then interior points in increasing order; the basis is nodal at the dof positions.", "quantifier": "every order", "why_tests_cant": "Unbounded order.", "anchors": ["PolyDiM/src/FEM/PCC/1D/FEM_PCC_1D_ReferenceElement.hpp:Create,EvaluateBasisFunctions"]}
{"id": "C41", "title": "Triangle element: dofs are the order-k lattice, each once", "statement": "Create(order) for order>=1 places the basis functions at the points (j/order, i/order), i+j<=order, each exactly once; vertices first, then the three edges, then the interior; counts are 3*NumDofs0D+3*NumDofs1D+NumDofs2D = (order+1)(order+2)/2, and dofs numbered on edge e lie on edge e ordered from its start to its end.", "quantifier": "every order", "why_tests_cant": "Unbounded order; the renumbering is built by list surgery.", "anchors": ["PolyDiM/src/FEM/PCC/2D/FEM_Triangle_PCC_2D_ReferenceElement.hpp:Create"]}
{"id": "C42", "title": "Triangle element: basis functions are nodal and sum to one", "statement": "EvaluateBasisFunctions at the dof position j gives 1 for basis function j and 0 for the others; at every point the basis functions sum to one, and for order >= 1 interpolating any polynomial of degree <= order at the dofs reproduces it.", "quantifier": "every order, every point, every polynomial", "why_tests_cant": "Unbounded order, all points.", "anchors": ["PolyDiM/src/FEM/PCC/2D/FEM_Triangle_PCC_2D_ReferenceElement.hpp:EvaluateBasisFunctions"]}
{"id": "C43", "title": "Triangle element: derivatives are the true derivatives", "statement": "EvaluateBasisFunctionDerivatives returns the partial derivatives of the functions returned by EvaluateBasisFunctions; on a mapped triangle ComputeBasisFunctionsDerivativeValues returns those of ComputeBasisFunctionsValues, for every affine map and every combination of edge directions.", "quantifier": "every order, every point", "why_tests_cant": "Limit statement for unbounded order.", "anchors": ["PolyDiM/src/FEM/PCC/2D/FEM_Triangle_PCC_2D_ReferenceElement.hpp:EvaluateBasisFunctionDerivatives"]}
{"id": "C44", "title": "Triangle element: second derivatives", "statement": "EvaluateBasisFunctionSecondDerivatives returns the derivatives of EvaluateBasisFunctionDerivatives for orders 0 to 3; for every order >= 4 it silently returns zeros, which are not the second derivatives (finding).", "quantifier": "every order, every point", "why_tests_cant": "All orders and all points.", "anchors": ["PolyDiM/src/FEM/PCC/2D/FEM_Triangle_PCC_2D_ReferenceElement.hpp:EvaluateBasisFunctionSecondDerivatives"]}
{"id": "C45", "title": "Triangle element: local renumbering by edge direction makes edge unknowns conforming", "statement": "CreateLocalSpace's DofsMeshOrder is a permutation, equal to its own inverse, that fixes vertex and interior dofs and reverses the dofs of each edge whose direction flag is false; hence the dofs of an edge are listed along the edge's own orientation whichever of its two triangles they are seen from, at (1-s)start+s*stop with s = (k+1)/order; and the local basis is nodal at the local dofs.", "quantifier": "every order, every combination of edge directions", "why_tests_cant": "Unbounded order; descending loops on unsigned counters.", "anchors": ["PolyDiM/src/FEM/PCC/2D/FEM_Triangle_PCC_2D_LocalSpace.cpp:CreateLocalSpace"]}
{"id": "C46", "title": "Triangle element: Laplacian values use the same ordering as values", "statement": "For orders 1, 2, and for order 3 when every edge direction is true, column j of ComputeBasisFunctionsLaplacianValues is the Laplacian of column j of ComputeBasisFunctionsValues; for order >= 4 the call throws. With order 3 and a reversed edge the columns are in reference order and the claim is false (finding).", "quantifier": "every order and edge direction", "why_tests_cant": "All direction combinations, maps and points.", "anchors": ["PolyDiM/src/FEM/PCC/2D/FEM_Triangle_PCC_2D_LocalSpace.cpp:MapLaplacianValues,MapValues"]}
{"id": "C47", "title": "Tetrahedron element: dofs are the order-k lattice and the basis is nodal", "statement": "Create(order) for order >= 1 places (order+1)(order+2)(order+3)/6 basis functions at the lattice points, each once; EvaluateBasisFunctions is nodal there and sums to one at every point. Create(0), which the code accepts, reads the first element of an empty vector (undefined behaviour).", "quantifier": "every order, every point", "why_tests_cant": "Unbounded order.", "anchors": ["PolyDiM/src/FEM/PCC/3D/FEM_Tetrahedron_PCC_3D_ReferenceElement.hpp:Create,EvaluateBasisFunctions"]}
{"id": "C48", "title": "Tetrahedron element: derivatives, and where they are not numbers", "statement": "EvaluateBasisFunctionDerivatives returns three matrices with one row per point and one column per basis function. An entry is the partial derivative of EvaluateBasisFunctions at that point when order is 1 or the point lies on no lattice plane parallel to a face strictly below the node of the function; for order >= 2 on such a plane the entry is not a number (0/0). Hence at every point of the lattice of nodes the three derivatives of some basis function are not numbers.", "quantifier": "every order >= 1, every point of space, every basis function, every direction", "why_tests_cant": "All points; a test at quadrature points never meets the planes on which the formula divides by zero.", "anchors": ["PolyDiM/src/FEM/PCC/3D/FEM_Tetrahedron_PCC_3D_ReferenceElement.hpp:EvaluateBasisFunctionDerivatives"]}
{"id": "C49", "title": "Polygon quadrature integrates constants exactly", "statement": "If the reference rule weights sum to the measure of the reference element, PolygonInternalQuadrature weights sum to the polygon area (sum of triangle areas), PolygonEdgesQuadrature / PolygonEdgesLobattoQuadrature weights sum to the perimeter, and the weights times normals sum to sum of length*normal.", "quantifier": "every polygon, triangulation, reference rule", "why_tests_cant": "Any number of vertices, triangles, points.", "anchors": ["PolyDiM/src/VEM/Quadrature/VEM_Quadrature_2D.cpp:PolygonInternalQuadrature,PolygonEdgesQuadrature,PolygonEdgesLobattoQuadrature"]}
{"id": "C50", "title": "Polygon edge quadrature points lie on their edges, vertex points shared", "statement": "Each internal edge quadrature point produced for edge i is on the segment between polygon vertices i and i+1, at the reference abscissa measured from the edge's own start (so the two polygons sharing the edge place their points identically); the weight of a polygon vertex is the sum of the end weights of its two adjacent edges.", "quantifier": "every polygon and direction assignment", "why_tests_cant": "Any number of vertices and points.", "anchors": ["PolyDiM/src/VEM/Quadrature/VEM_Quadrature_2D.cpp:PolygonEdgesLobattoQuadrature"]}
{"id": "C51", "title": "VEM dofi-dofi stabilization is symmetric, positive semidefinite and vanishes on polynomials", "statement": "ComputeDofiDofiStabilizationMatrix(projector, coef, D) and ComputeDRecipeStabilizationMatrix(projector, coercivity, weights, D) return a symmetric matrix S with x^T S x >= 0 (coef >= 0, weights >= 0), and S*D = 0 as soon as projector*D = I. For a created space the stabilizations PiNabla and Pi0k satisfy u^T S u = c * sum over the dofs of (dof of the projected polynomial - u)^2 with c = 1 and c = measure, hence S u = 0 for the dofs u of every polynomial of degree <= order.", "quantifier": "all sizes, matrices, vectors", "why_tests_cant": "All real matrices.", "anchors": ["PolyDiM/src/VEM/PCC/VEM_PCC_Utilities.hpp:ComputeDofiDofiStabilizationMatrix"]}
{"id": "C52", "title": "VEM L2 projectors reproduce polynomials", "statement": "On every created space: Bmatrix*D = Gmatrix, PiNabla*D = I, Cmatrix*D = Hmatrix, Pi0k*D = I, Pi0km1*D is the L2 projection on the lower degree. For arbitrary unknowns u the polynomial Pi0k u (Pi0km1 u) has, against the monomials of degree <= order - 2, the moments that u prescribes, and against the others the moments of PiNabla u.", "quantifier": "all orders, all symmetric positive definite H", "why_tests_cant": "All orders and matrices.", "anchors": ["PolyDiM/src/VEM/PCC/VEM_PCC_Utilities.hpp:ComputeL2Projectors", "PolyDiM/src/VEM/PCC/2D/VEM_PCC_2D_LocalSpace.cpp:ComputePolynomialsDofs"]}
{"id": "C53", "title": "VEM Laplacian at user points", "statement": "The overload without points of ComputeBasisFunctionsLaplacianValues returns at the quadrature points the divergence of the projected gradient, the exact Laplacian for the dofs of a polynomial of degree <= order. The overload with points passes its two matrices in swapped order: the product is ill-formed (undefined behaviour) unless the number of points is the dimension of the polynomials of degree order - 1, and then the result has one column for each monomial instead of one for each basis function.", "quantifier": "all orders, points", "why_tests_cant": "All sizes (found false: the two matrices are passed in swapped order).", "anchors": ["PolyDiM/src/VEM/PCC/2D/VEM_PCC_2D_LocalSpace.hpp:ComputeBasisFunctionsLaplacianValues", "PolyDiM/src/VEM/PCC/VEM_PCC_Utilities.hpp:ComputeBasisFunctionsLaplacianValues"]}
{"id": "C54", "title": "Trace of a 2D monomial on an edge", "statement": "MonomialTraceOnEdges returns, for each edge, coefficients such that sum_c C(row,c) s^c equals the scaled monomial `row` of degree up to k+1 at the point with parameter s of the edge, run along its direction, whenever each coordinate of the edge start equals that of the centroid or is further than 1e-12; otherwise the point is off by at most 1e-12 in each coordinate. It throws exactly when some edge starts within 1e-12 of the centroid, hence it refuses some polygons of positive area (negative finding).", "quantifier": "all orders, edges, parameters", "why_tests_cant": "Binomial identity for unbounded degree; three branches on coordinate differences.", "anchors": ["PolyDiM/src/VEM/MCC/VEM_MCC_Utilities.hpp:MonomialTraceOnEdges"]}
{"id": "C55", "title": "Raviart-Thomas divergence values are the divergence of the velocity values", "statement": "EvaluateVelocityBasisFunctionsDivergence returns d/dx of the first plus d/dy of the second component of EvaluateVelocityBasisFunctions at every point, and the number of basis functions equals the dimension (k+1)(k+3) of the RT space.", "quantifier": "every order, point, coefficient matrix", "why_tests_cant": "Limit statement for unbounded order.", "anchors": ["PolyDiM/src/FEM/MCC/2D/FEM_Triangle_RT_MCC_2D_ReferenceElement.hpp:EvaluateVelocityBasisFunctions,EvaluateVelocityBasisFunctionsDivergence,Create"]}
{"id": "C56", "title": "Piola map preserves divergence and edge flux", "statement": "The mapped velocity B*v/det has divergence div(v)/det at corresponding points, and its flux through every mapped edge, with the normal fixed by the edge's own direction, equals the reference flux at corresponding points, whatever the sign of the determinant.", "quantifier": "all affine maps with non-zero determinant, all velocities", "why_tests_cant": "All real maps.", "anchors": ["PolyDiM/src/FEM/MCC/2D/FEM_Triangle_RT_MCC_2D_LocalSpace.cpp:MapVelocityValues,MapVelocityDivergenceValues"]}
{"id": "C57", "title": "ZFEM local-to-global maps", "statement": "CreateMaps numbers the nodes of the star triangulation of a polygon onto 0..NumTotal-1 so that two (triangle, local node) pairs get the same number iff they are the same node (centre, polygon vertex or spoke node), each number being used.", "quantifier": "every order, every number of vertices", "why_tests_cant": "Unbounded order and vertex number; strided distribution of internal nodes.", "anchors": ["PolyDiM/src/ZFEM/PCC/ZFEM_PCC_Utilities.hpp:CreateMaps"]}
{"id": "C58", "title": "ZFEM virtual weights reproduce polynomials", "statement": "The weights computed by ComputeMinimizerSumOfSquaredWeightsMonomials satisfy: for every polynomial of the target degree, the weighted sum of its values at the real nodes is its value at each virtual node, and they have minimal sum of squares among such weights.", "quantifier": "all node sets for which the Gram matrix is invertible", "why_tests_cant": "All real inputs; optimality over all competitors.", "anchors": ["PolyDiM/src/ZFEM/PCC/ZFEM_PCC_Utilities.hpp:ComputeMinimizerSumOfSquaredWeightsMonomials"]}
{"id": "C59", "title": "Local space size equals the number of unknowns of the cell", "statement": "For FEM (triangles/quadrilaterals), VEM and ZFEM PCC 2D, LocalSpace Size(...) of cell c equals CellsGlobalDOFs[2][c].size() after SetMeshDOFsInfo and CreateDOFs_2D (so the assert in the assembler never fires and local matrices have matching sizes).", "quantifier": "every order >= 1, every polygonal mesh with as many edges as vertices per cell", "why_tests_cant": "Cross-module arithmetic for all orders and polygons.", "anchors": ["PolyDiM/src/PDETools/LocalSpace/LocalSpace_PCC_2D.cpp:Size,SetMeshDOFsInfo", "PolyDiM/src/PDETools/DOFs/DOFsManager.hpp:CreateDOFs_2D"]}
{"id": "C60", "title": "One dimensional local space on a segment", "statement": "FEM_PCC_1D_LocalSpace on a segment of R^3 whose tangent has the given length: the dofs are the images of the reference dofs, the basis evaluated at them is the identity, and the derivative values are the derivatives of the basis functions along the segment per unit of length.", "quantifier": "every order >= 1, both node families, every segment of non-zero length, every position along it", "why_tests_cant": "Limit statement over all segments and orders.", "anchors": ["PolyDiM/src/FEM/PCC/1D/FEM_PCC_1D_LocalSpace.cpp:CreateLocalSpace,MapValues,MapDerivativeValues", "PolyDiM/src/FEM/PCC/1D/FEM_PCC_1D_LocalSpace.hpp:F,FInv,ComputeBasisFunctionsValues,ComputeBasisFunctionsDerivativeValues"]}
{"id": "C61", "title": "Triangle elements are continuous across a shared edge", "statement": "Take two triangles whose local spaces of the same order list a common edge with the same oriented end points, and any two vectors of local unknowns that agree on the unknowns of that edge (its two vertices and its edge unknowns in their listed order). Then the two discrete functions take the same value at every point of the edge.", "quantifier": "every order >= 1, every pair of affine maps and edge directions, every pair of coefficient vectors, every point of the edge line", "why_tests_cant": "All orders, geometries, orientations and coefficients at once; this is what makes the global space conforming.", "anchors": ["PolyDiM/src/FEM/PCC/2D/FEM_Triangle_PCC_2D_LocalSpace.cpp:CreateLocalSpace,MapValues", "PolyDiM/src/FEM/PCC/2D/FEM_Triangle_PCC_2D_ReferenceElement.hpp:Create,EvaluateBasisFunctions"]}
{"id": "C62", "title": "Quadrilateral dofs form the lattice", "statement": "For every order at least 1 the reference quadrilateral has (order+1)^2 dofs, at the points (i/order, j/order) of the unit square, each once: first the four vertices, then order-1 dofs on each of the four edges at increasing coordinate, then the interior ones row by row. Order 0 is refused with an exception.", "quantifier": "every order", "why_tests_cant": "Unbounded order.", "anchors": ["PolyDiM/src/FEM/PCC/2D/FEM_Quadrilateral_PCC_2D_ReferenceElement.hpp:Create"]}
{"id": "C63", "title": "Quadrilateral basis is nodal and its derivatives are right", "statement": "The basis evaluated at its dofs is the identity; interpolation reproduces every polynomial of degree at most order in each variable at every point; the two derivative matrices hold the partial derivatives of the basis functions.", "quantifier": "every order >= 1, all polynomials of the tensor space, every evaluation point", "why_tests_cant": "All real points and coefficients, limits.", "anchors": ["PolyDiM/src/FEM/PCC/2D/FEM_Quadrilateral_PCC_2D_ReferenceElement.hpp:EvaluateBasisFunctions,EvaluateBasisFunctionDerivatives"]}
{"id": "C64", "title": "Quadrilateral local space", "statement": "On a quadrilateral of the mesh the dofs of an edge are listed along the orientation of the edge whatever the edge directions, the local basis is nodal at the local dofs, and the derivative values are the derivatives of the local values, on parallelograms and on general bilinear quadrilaterals alike. Laplacian values are never available: asked at points the call throws; asked at the quadrature points it throws on a general quadrilateral and returns an empty matrix on a parallelogram.", "quantifier": "every order >= 1, all edge directions, all maps whose inverse is an inverse on the unit square, every point", "why_tests_cant": "All orders, geometries, orientations and points.", "anchors": ["PolyDiM/src/FEM/PCC/2D/FEM_Quadrilateral_PCC_2D_LocalSpace.cpp:CreateLocalSpace,MapDerivativeValues,MapLaplacianValues", "PolyDiM/src/FEM/PCC/2D/FEM_Quadrilateral_PCC_2D_LocalSpace.hpp:ComputeBasisFunctionsValues,ComputeBasisFunctionsDerivativeValues,ComputeBasisFunctionsLaplacianValues"]}
{"id": "C65", "title": "Quadrilateral and triangle elements are continuous across a shared edge", "statement": "Take two cells of the same order, both quadrilaterals or a triangle and a quadrilateral, whose local spaces list a common edge with the same oriented end points, and two vectors of local unknowns that agree on the unknowns of that edge. The two discrete functions take the same value at every point of the edge.", "quantifier": "every order >= 1, all maps and edge directions, all coefficient vectors, every point of the edge", "why_tests_cant": "All orders, geometries, orientations and coefficients at once; two different formulas for the one-dimensional trace functions must agree.", "anchors": ["PolyDiM/src/FEM/PCC/2D/FEM_Quadrilateral_PCC_2D_LocalSpace.cpp:CreateLocalSpace", "PolyDiM/src/FEM/PCC/2D/FEM_Triangle_PCC_2D_LocalSpace.cpp:CreateLocalSpace", "PolyDiM/src/FEM/PCC/2D/FEM_Quadrilateral_PCC_2D_ReferenceElement.hpp:EvaluateBasisFunctions", "PolyDiM/src/FEM/PCC/2D/FEM_Triangle_PCC_2D_ReferenceElement.hpp:EvaluateBasisFunctions"]}
{"id": "C66", "title": "Mixed local space sizes equal the number of unknowns of the cell", "statement": "For every mixed (MCC) 2D method, VelocitySize(...) of a cell equals the length of its list of global unknowns when the table of unknowns is made by Create_Constant_DOFsInfo_2D from the velocity part of ReferenceElementNumDOFs and numbered by CreateDOFs_2D; the same holds for the number of pressure functions with the pressure part. Raviart-Thomas refuses cells that are not triangles.", "quantifier": "every order, every method, every polygonal mesh with as many edges as vertices per cell", "why_tests_cant": "Cross-module arithmetic for all orders and polygons; five variants compute the size in two different ways.", "anchors": ["PolyDiM/src/PDETools/LocalSpace/LocalSpace_MCC_2D.cpp:VelocitySize,ReferenceElementNumDOFs", "PolyDiM/src/VEM/MCC/2D/VEM_MCC_2D_Partial_Velocity_LocalSpace.cpp:InitializeProjectorsComputation", "PolyDiM/src/FEM/MCC/2D/FEM_Triangle_RT_MCC_2D_ReferenceElement.hpp:Create", "PolyDiM/src/PDETools/DOFs/DOFsManager.hpp:Create_Constant_DOFsInfo_2D,CreateDOFs_2D"]}
{"id": "C67", "title": "Divergence-free velocity size is the sum of its three tables", "statement": "For the divergence-free (DF_PCC) 2D methods, VelocitySize(...) of a cell equals the sum of the lengths of its lists of unknowns in the first three tables returned by SetMeshDOFsInfo (two velocity components, internal unknowns), and the number of pressure functions is the length of the list of the fourth.", "quantifier": "every order, both methods, every polygonal mesh with as many edges as vertices per cell, all boundary maps", "why_tests_cant": "Cross-module arithmetic for all orders and polygons.", "anchors": ["PolyDiM/src/PDETools/LocalSpace/LocalSpace_DF_PCC_2D.cpp:SetMeshDOFsInfo,VelocitySize", "PolyDiM/src/VEM/DF_PCC/2D/VEM_DF_PCC_2D_Velocity_LocalSpace.cpp:InitializeProjectorsComputation"]}
{"id": "C68", "title": "Polygon quadratures satisfy the divergence theorem exactly", "statement": "For every polynomial F of degree at most n, the internal quadrature of a triangulated polygon applied to dF/dx (dF/dy) equals the boundary quadrature with the first (second) component of weights times normal applied to F, provided the reference edge rule is exact for degree n and the reference triangle rule for degree n - 1. It holds for PolygonEdgesLobattoQuadrature with equal end weights and for PolygonEdgesQuadrature.", "quantifier": "every polygon, every triangulation of it by counterclockwise triangles, every direction of the edges, every degree, every polynomial", "why_tests_cant": "All polygons, degrees and polynomials.", "anchors": ["PolyDiM/src/VEM/Quadrature/VEM_Quadrature_2D.cpp:PolygonInternalQuadrature,PolygonEdgesQuadrature,PolygonEdgesLobattoQuadrature"]}
{"id": "C69", "title": "A virtual element space can be created on every polygon", "statement": "For every order >= 1 and every polygon with consistent data (counterclockwise triangulation, tangents, outward normals) CreateLocalSpace succeeds, with order*vertices + order(order-1)/2 basis functions and (order+1)(order+2)/2 polynomials; the matrix given to the LU solver is nonsingular and the mass matrices given to the Cholesky solver are symmetric positive definite.", "quantifier": "every order >= 1, every polygon (any number of vertices, non convex included), every triangulation, every edge direction, all rules with the stated exactness", "why_tests_cant": "Invertibility must hold for all polygons and orders; a test sees a few well shaped ones.", "anchors": ["PolyDiM/src/VEM/PCC/2D/VEM_PCC_2D_LocalSpace.cpp:CreateLocalSpace,InitializeProjectorsComputation,ComputePiNabla,ComputeL2Projectors"]}
{"id": "C70", "title": "Virtual element projections reproduce polynomials", "statement": "On every created space and for every polynomial f of degree <= order, with u the dofs of f (values at the boundary points, scaled moments inside): PiNabla u = f, Pi0k u = f, Pi0km1Der u = (df/dx, df/dy), and Pi0km1 u = f when the degree is <= order - 1; the columns of the matrix of polynomial dofs are the dofs of the scaled monomials.", "quantifier": "every order >= 1, every polygon, every polynomial, every point", "why_tests_cant": "All polygons, orders and polynomials.", "anchors": ["PolyDiM/src/VEM/PCC/2D/VEM_PCC_2D_LocalSpace.cpp:CreateLocalSpace,ComputePiNabla,ComputeL2Projectors,ComputeL2ProjectorsOfDerivatives,ComputePolynomialsDofs"]}
{"id": "C71", "title": "PiNabla is the energy projection of every virtual function", "statement": "For arbitrary unknowns u and every polynomial g of degree <= order, the integral of grad(PiNabla u).grad(g) computed by the internal quadrature equals the boundary term (normal derivative of g times the boundary unknowns) minus the moment of u against the Laplacian of g, all computed from the unknowns; the boundary mean (order 1) or the mean (order >= 2) of PiNabla u is that of the unknowns.", "quantifier": "every order >= 1, every polygon, all unknowns, all test polynomials", "why_tests_cant": "Virtual functions are not known pointwise, so no test can compare values; the property is about all vectors of unknowns.", "anchors": ["PolyDiM/src/VEM/PCC/2D/VEM_PCC_2D_LocalSpace.cpp:ComputePiNabla"]}
{"id": "C72", "title": "The projected derivatives are the L2 projections of the derivatives", "statement": "For arbitrary unknowns u, every polynomial g of degree <= order - 1 and d = x, y, the integral of (Pi0km1Der[d] u) g equals the boundary integral of g u n_d minus the moment of u against dg/dx_d.", "quantifier": "every order >= 1, every polygon, all unknowns, all test polynomials", "why_tests_cant": "All vectors of unknowns and all polynomials.", "anchors": ["PolyDiM/src/VEM/PCC/2D/VEM_PCC_2D_LocalSpace.cpp:ComputeL2ProjectorsOfDerivatives"]}
{"id": "C73", "title": "Virtual basis values and derivatives are those of the projected polynomials", "statement": "At any points, and at the internal quadrature points, ComputeBasisFunctionsValues with Pi0k, Pi0km1 and ComputeBasisFunctionsDerivativeValues with PiNabla, Pi0km1Der have one row for each point and one column for each basis function; combined with unknowns u they give the values of the polynomials Pi0k u, Pi0km1 u, of the partial derivatives of the polynomial PiNabla u, and of Pi0km1Der u.", "quantifier": "every order >= 1, every polygon, all points, all unknowns", "why_tests_cant": "All points, polygons and unknowns.", "anchors": ["PolyDiM/src/VEM/PCC/2D/VEM_PCC_2D_LocalSpace.hpp:ComputeBasisFunctionsValues,ComputeBasisFunctionsDerivativeValues", "PolyDiM/src/VEM/PCC/VEM_PCC_Utilities.hpp:ComputeBasisFunctionsValues,ComputeBasisFunctionsDerivativeValues"]}
{"id": "C74", "title": "Interpolating a function gives every cell its own degrees of freedom", "statement": "evaluate_function_on_dofs returns vectors of the right sizes such that, on every cell, global_solution_to_local_solution returns the function's values at the vertices, at the points of the edge unknowns, and the internal unknowns of the local space; consequently, when the local spaces reproduce the function from these unknowns, compute_error_L2 and compute_error_H1 return 0.", "quantifier": "all meshes and handlers with one unknown per vertex, all local spaces whose edge points agree between the cells of an edge, all functions", "why_tests_cant": "Shared unknowns are written once for each cell: that the writes agree must hold for all meshes, orientations and functions.", "anchors": ["PolyDiM/src/PDETools/Assembler/assembler_PCC_2D_functions.cpp:evaluate_function_on_dofs,compute_error_L2,compute_error_H1"]}
{"id": "C75", "title": "ZFEM basis functions reproduce polynomials and their gradients", "statement": "On every polygon star-shaped with respect to its given centre, for every polynomial f of degree <= order, the ZFEM basis functions returned by ComputeBasisFunctionsValues and ComputeBasisFunctionsDerivativeValues, combined with the values of f at the nodes of the space, give f and its two partial derivatives at every requested point of every triangle, provided the nodes determine a polynomial of that degree; they do when order+1 sides lie on different lines, and from order 3 on when as many sides as the order do.", "quantifier": "every order, every polygon with any number of sides, all lists of points, all polynomials", "why_tests_cant": "All polygons, orders, points and polynomials; a wrong number in the map from triangle to polygon nodes is invisible on symmetric polygons.", "anchors": ["PolyDiM/src/ZFEM/PCC/2D/ZFEM_PCC_2D_LocalSpace.cpp:CreateLocalSpace", "PolyDiM/src/ZFEM/PCC/2D/ZFEM_PCC_2D_LocalSpace.hpp:ComputeBasisFunctionsValues,ComputeBasisFunctionsDerivativeValues"]}
{"id": "C76", "title": "ZFEM functions are continuous across the sides of the polygons", "statement": "If two polygons share a side and their unknowns at the two ends and at the nodes of the side are the same, listed along the side's own direction, the two ZFEM functions have the same value at every point of the side, whatever the other unknowns and the weights are.", "quantifier": "every order, every pair of polygons with a common side seen in either direction, all unknowns, all points of the side", "why_tests_cant": "Conformity must hold for all unknowns and orientations.", "anchors": ["PolyDiM/src/ZFEM/PCC/2D/ZFEM_PCC_2D_LocalSpace.cpp:CreateLocalSpace", "PolyDiM/src/ZFEM/PCC/2D/ZFEM_PCC_2D_LocalSpace.hpp:ComputeBasisFunctionsValues"]}
{"id": "C77", "title": "ZFEM basis functions are nodal, and at a virtual node they are its weights", "statement": "At node n of the fine mesh, seen from any triangle that has it, basis function i returned by ComputeBasisFunctionsValues is 1 if i = n and 0 if not when n is a node of the space, and is the weight of i in virtual node n when n is a virtual node.", "quantifier": "every order, every polygon, all nodes", "why_tests_cant": "All orders and polygons: the node sits in several triangles with different local numbers.", "anchors": ["PolyDiM/src/ZFEM/PCC/2D/ZFEM_PCC_2D_LocalSpace.hpp:ComputeBasisFunctionsValues"]}
{"id": "C78", "title": "Triangle element: polynomials and gradients are reproduced on mesh triangles", "statement": "On every non degenerate triangle of the mesh, with edges seen in any direction, for every polynomial f of degree <= order, ComputeBasisFunctionsValues and ComputeBasisFunctionsDerivativeValues combined with the values of f at the local dofs give f and its gradient at every point.", "quantifier": "every order, every triangle, every combination of edge directions, all polynomials and points", "why_tests_cant": "All triangles, orders, directions; the columns must follow the same renumbering as the dofs.", "anchors": ["PolyDiM/src/FEM/PCC/2D/FEM_Triangle_PCC_2D_LocalSpace.cpp:CreateLocalSpace", "PolyDiM/src/FEM/PCC/2D/FEM_Triangle_PCC_2D_ReferenceElement.hpp:EvaluateBasisFunctions,EvaluateBasisFunctionDerivatives"]}
{"id": "C79", "title": "Raviart-Thomas triangle: the basis is dual to edge moments and internal moments", "statement": "For every order k, Create succeeds and reports k+1 unknowns for each edge, k(k+1) internal ones, (k+1)(k+3) in all and (k+1)(k+2)/2 pressures; for each of the edge directions the basis functions evaluated by EvaluateVelocityBasisFunctions are 1 on their own degree of freedom (moments of the normal component on the edges, moments against polynomials of degree < k inside) and 0 on the others.", "quantifier": "every order, every combination of edge directions, all quadrature rules exact to the needed degree, every exact linear solver", "why_tests_cant": "The local matrix must be nonsingular and the degrees of freedom right for all orders: a test inverts one matrix.", "anchors": ["PolyDiM/src/FEM/MCC/2D/FEM_Triangle_RT_MCC_2D_ReferenceElement.hpp:Create,EvaluateVelocityBasisFunctions"]}
{"id": "C80", "title": "Raviart-Thomas triangle: every field of the space is reproduced", "statement": "The basis functions belong to the space of vector polynomials of degree k plus (x,y) times polynomials of degree k, and every field of that space equals, at every point, the sum of the basis functions times its degrees of freedom.", "quantifier": "every order, every combination of edge directions, all fields of the space, all points", "why_tests_cant": "All fields, points and orders.", "anchors": ["PolyDiM/src/FEM/MCC/2D/FEM_Triangle_RT_MCC_2D_ReferenceElement.hpp:Create,EvaluateVelocityBasisFunctions"]}
{"id": "C81", "title": "Raviart-Thomas functions have continuous normal component across edges", "statement": "If two mesh triangles share an edge, seen with either orientation and under any local number, and the unknowns of that edge are the same, the normal components of the two velocities agree at every point of the edge, whatever the other unknowns are.", "quantifier": "every order, every pair of non degenerate triangles, all unknowns, all points of the edge", "why_tests_cant": "Conformity must hold for all shapes, orientations and unknowns.", "anchors": ["PolyDiM/src/FEM/MCC/2D/FEM_Triangle_RT_MCC_2D_LocalSpace.cpp:CreateLocalSpace,ComputeVelocityBasisFunctionsValues"]}
{"id": "C82", "title": "Raviart-Thomas local space: quadratures live on the triangle and stored values are the values at their points", "statement": "CreateLocalSpace succeeds on every non degenerate triangle; the internal quadrature is the reference rule at the mapped points with weights times twice the area, each boundary quadrature runs along its edge with weights times the length, and the velocity, divergence and pressure values returned without points are those at the internal quadrature points.", "quantifier": "every order, every non degenerate triangle of either orientation", "why_tests_cant": "All triangles and rules; the stored values are computed by another path than those at given points.", "anchors": ["PolyDiM/src/FEM/MCC/2D/FEM_Triangle_RT_MCC_2D_LocalSpace.cpp:CreateLocalSpace,ComputeVelocityBasisFunctionsValues,ComputePressureBasisFunctionsValues"]}
{"id": "C83", "title": "Raviart-Thomas triangle: mass is conserved", "statement": "For every matrix of coefficients, the integral of the divergence returned over the triangle equals the sum over the three edges of the flux of the velocity returned, each with the sign of the edge direction.", "quantifier": "every order, all coefficients, every combination of edge directions", "why_tests_cant": "All coefficients and orders; needs the values and the divergences, computed apart, to agree.", "anchors": ["PolyDiM/src/FEM/MCC/2D/FEM_Triangle_RT_MCC_2D_ReferenceElement.hpp:EvaluateVelocityBasisFunctions,EvaluateVelocityBasisFunctionsDivergence"]}
{"id": "C84", "title": "Tetrahedron element reproduces polynomials", "statement": "The combination of the basis functions returned by EvaluateBasisFunctions, with the values of a polynomial of degree at most the order at the positions of the degrees of freedom as coefficients, is that polynomial at every point.", "quantifier": "every order >= 1, every polynomial in three variables of degree at most the order, every point", "why_tests_cant": "Unbounded order and all polynomials.", "anchors": ["PolyDiM/src/FEM/PCC/3D/FEM_Tetrahedron_PCC_3D_ReferenceElement.hpp:Create,EvaluateBasisFunctions"]}
{"id": "C85", "title": "Tetrahedral cell: every unknown sits on its mesh vertex, edge, face or inside", "statement": "On every tetrahedron of a mesh, whatever the numbering of its edges and faces, the vertex each face starts from and the directions of its edges, CreateLocalSpace succeeds; its Dofs are the images of the reference lattice, each once; unknown v < 4 is vertex v, the unknowns of edge e run along the edge in the direction of the mesh, those of face f are the interior lattice of the triangle listed for the face, and EdgeDOFsCoordinates / FaceDOFsCoordinates give those blocks.", "quantifier": "every order >= 1, every non degenerate tetrahedron, every numbering of edges and faces, every edge direction", "why_tests_cant": "The 24 orders of the vertices of a face, the numberings of edges and faces and all orders of the element are far too many to sample.", "anchors": ["PolyDiM/src/FEM/PCC/3D/FEM_Tetrahedron_PCC_3D_LocalSpace.cpp:CreateLocalSpace", "PolyDiM/src/FEM/PCC/3D/FEM_Tetrahedron_PCC_3D_LocalSpace.hpp:EdgeDOFsCoordinates,FaceDOFsCoordinates"]}
{"id": "C86", "title": "Tetrahedral cell: shape functions are nodal and reproduce polynomials", "statement": "The values returned by ComputeBasisFunctionsValues are 1 at the unknown of the function and 0 at the others, and combined with the values of a polynomial of degree at most the order at Dofs they give that polynomial at every point.", "quantifier": "every order >= 1, every non degenerate tetrahedron, every numbering and orientation, every polynomial, every point", "why_tests_cant": "All cells, polynomials and points.", "anchors": ["PolyDiM/src/FEM/PCC/3D/FEM_Tetrahedron_PCC_3D_LocalSpace.cpp:CreateLocalSpace,MapValues", "PolyDiM/src/FEM/PCC/3D/FEM_Tetrahedron_PCC_3D_LocalSpace.hpp:ComputeBasisFunctionsValues"]}
{"id": "C87", "title": "Tetrahedral cells sharing a face carry one continuous function", "statement": "If two cells list a common face from the same vertex in the same sense, orient its edges alike, and their unknowns of the vertices, the edges and the inside of the face agree, then the two combinations of shape functions agree at every point of the face, whatever the other unknowns and the local numberings are.", "quantifier": "every order >= 1, every pair of non degenerate tetrahedra with a common face, all unknowns, all points of the face", "why_tests_cant": "Conformity must hold for all shapes, numberings, orientations and unknowns.", "anchors": ["PolyDiM/src/FEM/PCC/3D/FEM_Tetrahedron_PCC_3D_LocalSpace.cpp:CreateLocalSpace", "PolyDiM/src/FEM/PCC/3D/FEM_Tetrahedron_PCC_3D_LocalSpace.hpp:ComputeBasisFunctionsValues"]}
{"id": "C88", "title": "Tetrahedral cell: where the derivatives are the derivatives", "statement": "ComputeBasisFunctionsDerivativeValues returns the three partial derivatives in the coordinates of the mesh of the functions returned by ComputeBasisFunctionsValues, for order 1 everywhere; from order 2 on, at a point on a plane of the lattice of the cell between a face and the node of the function, the three entries are not numbers.", "quantifier": "every order >= 1, every non degenerate tetrahedron, every point and function", "why_tests_cant": "All points, among them those of measure zero where the formula divides by zero.", "anchors": ["PolyDiM/src/FEM/PCC/3D/FEM_Tetrahedron_PCC_3D_LocalSpace.cpp:MapDerivatives", "PolyDiM/src/FEM/PCC/3D/FEM_Tetrahedron_PCC_3D_LocalSpace.hpp:ComputeBasisFunctionsDerivativeValues"]}
{"id": "C89", "title": "Tetrahedral cell: values on a face are the traces", "statement": "ComputeBasisFunctionsValuesOnFace at points of the plane description of a face gives, for each node of the face, the value at the rotated point of the cell shape function of that node; every node of the plane triangle is a node of the cell, and the shape functions of the other nodes vanish on the face.", "quantifier": "every order >= 1, every non degenerate tetrahedron, every face, every direction of the edges in the plane, all points of the face", "why_tests_cant": "All shapes, numberings, orientations and points; the two sides are computed by different elements.", "anchors": ["PolyDiM/src/FEM/PCC/3D/FEM_Tetrahedron_PCC_3D_LocalSpace.cpp:CreateLocalSpace", "PolyDiM/src/FEM/PCC/3D/FEM_Tetrahedron_PCC_3D_LocalSpace.hpp:ComputeBasisFunctionsValuesOnFace"]}
{"id": "C90", "title": "Tetrahedral cell: tables on quadrature points are values at those points", "statement": "The internal quadrature is the reference rule at the mapped points with weights times six times the volume of the cell; the values and derivatives returned without points are those returned at the internal quadrature points.", "quantifier": "every order >= 1, every non degenerate tetrahedron, every reference rule", "why_tests_cant": "All cells and rules; the tables are computed by another path than the values at given points.", "anchors": ["PolyDiM/src/FEM/PCC/3D/FEM_Tetrahedron_PCC_3D_LocalSpace.cpp:CreateLocalSpace,InternalQuadrature,MapValues,MapDerivatives", "PolyDiM/src/FEM/PCC/3D/FEM_Tetrahedron_PCC_3D_LocalSpace.hpp:ComputeBasisFunctionsValues,ComputeBasisFunctionsDerivativeValues"]}
{"id": "C91", "title": "The assembled elliptic operator is the discrete form", "statement": "assemble_elliptic_operator succeeds and, for all free and strong values, row r of (free matrix) (free values) + (strong matrix) (strong values) is the sum over the active cells of the quadrature of (K grad u) . grad v + (b . grad u) v + c u v plus the stabilisation times the greatest modulus of the diffusion coefficients in the cell, v the function of free unknown r and u the discrete function with those values; all recorded indices are inside the matrices.", "quantifier": "every mesh, every trial and test numbering, every set of active cells, every local space with tables of the right sizes, all coefficients, all free and strong values, every row", "why_tests_cant": "All meshes, numberings, coefficients and vectors.", "anchors": ["PolyDiM/src/PDETools/Assembler/assembler_PCC_2D_functions.cpp:assemble_elliptic_operator,function_evaluation"]}
{"id": "C92", "title": "The assembled source term is the quadrature of the source", "statement": "assemble_source_term returns a vector with one entry for each free unknown, entry r being the sum over the active cells of the quadrature of f times the function of free unknown r.", "quantifier": "every mesh, numbering, set of active cells, local spaces and source", "why_tests_cant": "All meshes, numberings and functions.", "anchors": ["PolyDiM/src/PDETools/Assembler/assembler_PCC_2D_functions.cpp:assemble_source_term"]}
{"id": "C93", "title": "Form of the assembled operator: pairs, symmetry, energy", "statement": "Tested with a vector of free values, the assembled operator gives the sum over the active cells of the discrete form on the two discrete functions, the test function having zero strong values. Without advection, with equal trial and test functions, symmetric diffusion and stabilisation the free matrix is symmetric; with positive weights and nonnegative data its energy is nonnegative, and if the energy is zero the discrete gradient vanishes at the points of every active cell where the diffusion is positive definite, the values vanish where the reaction is positive, and the stabilisation energy is zero.", "quantifier": "every mesh, numbering, set of active cells, local spaces, coefficients and vectors", "why_tests_cant": "Symmetry and positivity concern all vectors on all meshes.", "anchors": ["PolyDiM/src/PDETools/Assembler/assembler_PCC_2D_functions.cpp:assemble_elliptic_operator"]}
{"id": "C94", "title": "The weak term is the boundary quadrature of the data", "statement": "assemble_weak_term returns a vector with one entry for each free unknown, entry r being the sum over the active cells and over their edges marked Weak of the quadrature, on the edge, of the boundary function of the marker times the edge function of free unknown r; the points used on an edge are those of the edge of the mesh in its own direction, whichever cell it is seen from.", "quantifier": "every mesh, numbering, boundary marking, set of active cells, boundary functions and one dimensional rule", "why_tests_cant": "All meshes, orientations of edges and data.", "anchors": ["PolyDiM/src/PDETools/Assembler/assembler_PCC_2D_functions.cpp:assemble_weak_term"]}
{"id": "C95", "title": "Values at the vertices", "statement": "extract_solution_on_cell0Ds returns one numeric and one exact value for each vertex: zero on inactive vertices, otherwise the exact solution at the vertex and the free or strong value of the last unknown of the vertex (zero if it has none).", "quantifier": "every mesh, numbering, set of active vertices, free and strong values, exact solution", "why_tests_cant": "All meshes, numberings and vectors.", "anchors": ["PolyDiM/src/PDETools/Assembler/assembler_PCC_2D_functions.cpp:extract_solution_on_cell0Ds"]}
{"id": "C96", "title": "Evaluation on the quadrature points, and the errors as sums over them", "statement": "evaluate_solution_on_quadrature_points returns, for the active cells one after the other, each quadrature point with its weight, the discrete and the exact value and the two gradients (third component of the discrete gradient zero), and nothing else, whatever the result held before; compute_error_L2 and compute_error_H1 report for each active cell the weighted sums of squares over its points (zero for an inactive cell) and the roots of the sums over all the points.", "quantifier": "every mesh, numbering, set of active cells, local spaces, free and strong values, exact solutions (given or not), previous contents", "why_tests_cant": "All meshes and values; offsets accumulate over cells with different numbers of points.", "anchors": ["PolyDiM/src/PDETools/Assembler/assembler_PCC_2D_functions.cpp:evaluate_solution_on_quadrature_points,compute_error_L2,compute_error_H1"]}
{"id": "C97", "title": "Sources depending on a discrete function", "statement": "The overloads of assemble_source_term with a discrete function return, for each free unknown r, the sum over the active cells of the quadrature of f(x, u, grad u) v, or of f(x, u, grad u) . grad v, v the function of unknown r and u the discrete function given by the free and strong values.", "quantifier": "every mesh, trial and test numbering, set of active cells, local spaces, free and strong values, functions", "why_tests_cant": "All meshes, numberings and functions.", "anchors": ["PolyDiM/src/PDETools/Assembler/assembler_PCC_2D_functions.cpp:assemble_source_term,assemble_source_term_gradients,function_evaluation"]}
{"id": "C98", "title": "Operator with coefficients depending on a discrete function", "statement": "The overload of assemble_elliptic_operator with a discrete function w gives, in row r applied to the values of u, the sum over the active cells of the quadrature of a(w) grad u . grad v + (b(w) . grad u) v + c(w) u v plus the stabilisation times the greatest modulus of a(w) in the cell.", "quantifier": "every mesh, numbering, set of active cells, local spaces, coefficients, linearisation function w and function u", "why_tests_cant": "All meshes, numberings, coefficients and vectors.", "anchors": ["PolyDiM/src/PDETools/Assembler/assembler_PCC_2D_functions.cpp:assemble_elliptic_operator,function_evaluation"]}
{"id": "C99", "title": "The diffusion operator is the form with a scalar coefficient", "statement": "assemble_diffusion_operator gives in row r the sum over the active cells of the quadrature of k grad u . grad v plus the stabilisation times the greatest modulus of k at the points of the cell.", "quantifier": "every mesh, numbering, set of active cells, local spaces, coefficient and values", "why_tests_cant": "All meshes, numberings, coefficients and vectors.", "anchors": ["PolyDiM/src/PDETools/Assembler/assembler_PCC_2D_functions.cpp:assemble_diffusion_operator", "PolyDiM/src/PDETools/Assembler/assembler_PCC_2D_functions_utilities.hpp:anysotropic_diffusion_term_function"]}
{"id": "C100", "title": "The Navier-Stokes operators are the convective term and its derivative", "statement": "assemble_NS_operators stacks the two velocity components; entry (h, r) of its right-hand side is the sum over the active cells of the quadrature of component h of (u . grad) u times the function of unknown r, and its operator applied to d is the same with (u . grad) d + (d . grad) u. Hence right-hand side(u + d) = right-hand side(u) + operator(u) d + right-hand side(d): the operator is the exact derivative.", "quantifier": "every mesh, numbering, set of active cells, local spaces, velocities and increments, free and strong", "why_tests_cant": "All meshes and all pairs of vectors; offsets of the blocks depend on the cell.", "anchors": ["PolyDiM/src/PDETools/Assembler/assembler_PCC_2D_functions.cpp:assemble_NS_operators,compute_NS_convective_lhs,compute_NS_convective_rhs"]}
{"id": "C101", "title": "The drivers do not run on ZFEM cells", "statement": "When an active cell has a ZFEM local space, assemble_elliptic_operator and assemble_source_term never return a result, whatever the equation: they ask the values or the derivatives at the quadrature points, an overload without a ZFEM case. (A user would expect every method accepted by CreateLocalSpace to run.)", "quantifier": "every mesh with an active ZFEM cell, numbering, equation and source", "why_tests_cant": "All meshes and equations.", "anchors": ["PolyDiM/src/PDETools/LocalSpace/LocalSpace_PCC_2D.cpp:BasisFunctionsValues,BasisFunctionsDerivativeValues", "PolyDiM/src/PDETools/Assembler/assembler_PCC_2D_functions.cpp:assemble_elliptic_operator,assemble_source_term"]}
{"id": "C102", "title": "Virtual element: the unknowns of a function, exactness of the errors on a mesh", "statement": "On a mesh of polygons with the virtual element of order k, evaluate_function_on_dofs succeeds for every function; when the function is a polynomial of degree at most k the L2 and H1 errors of the discrete function with these unknowns are computed and are zero.", "quantifier": "every polygonal mesh, order, marking of the boundary, set of active cells, function", "why_tests_cant": "All meshes, orders and polynomials.", "anchors": ["PolyDiM/src/PDETools/LocalSpace/LocalSpace_PCC_2D.cpp:CreateLocalSpace,EdgeDofsCoordinates,InternalDofs", "PolyDiM/src/PDETools/Assembler/assembler_PCC_2D_functions.cpp:evaluate_function_on_dofs,compute_error_L2,compute_error_H1"]}
{"id": "C103", "title": "Virtual element: patch test", "statement": "On a mesh of polygons with the virtual element of order k, if p is a polynomial of degree at most k that solves - div(K grad p) + b . grad p + c p = f with K grad p polynomial of degree k - 1 (and p of degree k - 1 when there is reaction), then the assembled operator applied to the unknowns of p equals the assembled source term plus the weak term with the normal flux, in every row.", "quantifier": "every polygonal mesh of any shape of cells, orientation of the edges, mixed Strong and Weak boundary, order, diffusion, advection and reaction", "why_tests_cant": "The patch test must hold for all meshes and all polynomials; it fails on particular orientations of edges or shapes of cells.", "anchors": ["PolyDiM/src/PDETools/Assembler/assembler_PCC_2D_functions.cpp:assemble_elliptic_operator,assemble_source_term,assemble_weak_term,evaluate_function_on_dofs", "PolyDiM/src/PDETools/LocalSpace/LocalSpace_PCC_2D.cpp:CreateLocalSpace,BasisFunctionsValuesOnEdge,StabilizationMatrix"]}
{"id": "C104", "title": "Virtual element: the assembled system has one solution", "statement": "With positive definite diffusion, nonnegative reaction and no advection, rules with positive weights and every cell connected to a Strong vertex through cells sharing vertices, the energy of the assembled operator is positive on every nonzero vector, and for all right-hand sides and strong values the system has exactly one solution.", "quantifier": "every polygonal mesh, order, coefficients, right-hand sides and strong values", "why_tests_cant": "Definiteness is about all vectors on all meshes.", "anchors": ["PolyDiM/src/PDETools/Assembler/assembler_PCC_2D_functions.cpp:assemble_elliptic_operator", "PolyDiM/src/PDETools/LocalSpace/LocalSpace_PCC_2D.cpp:StabilizationMatrix"]}
{"id": "C105", "title": "Virtual element: polynomial solutions are computed exactly", "statement": "Under the hypotheses of the patch test and of solvability, with the strong values computed by assemble_strong_solution from the boundary values, the only solution of the assembled system has zero L2 and H1 errors.", "quantifier": "every polygonal mesh, order, coefficients, polynomial solution, mixed boundary conditions", "why_tests_cant": "The whole chain of drivers must be consistent for all meshes and data.", "anchors": ["PolyDiM/src/PDETools/Assembler/assembler_PCC_2D_functions.cpp:assemble_elliptic_operator,assemble_source_term,assemble_weak_term,assemble_strong_solution,compute_error_L2,compute_error_H1"]}
{"id": "C106", "title": "Finite element: the unknowns of a function, exactness of the errors on a mesh", "statement": "On a mesh of triangles with the finite element of order k, evaluate_function_on_dofs succeeds for every function; when the function is a polynomial of degree at most k the L2 and H1 errors of the discrete function with these unknowns are computed and are zero.", "quantifier": "every mesh of triangles, orientation of the edges, order, marking of the boundary, set of active cells, function", "why_tests_cant": "All meshes, orders and polynomials; the order of the unknowns of an edge depends on its direction in each cell.", "anchors": ["PolyDiM/src/PDETools/LocalSpace/LocalSpace_PCC_2D.cpp:CreateLocalSpace,EdgeDofsCoordinates,InternalDofsCoordinates", "PolyDiM/src/FEM/PCC/2D/FEM_Triangle_PCC_2D_LocalSpace.cpp:CreateLocalSpace", "PolyDiM/src/PDETools/Assembler/assembler_PCC_2D_functions.cpp:evaluate_function_on_dofs,compute_error_L2,compute_error_H1"]}
{"id": "C107", "title": "Finite element: patch test", "statement": "On a mesh of triangles with the finite element of order k, if p is a polynomial of degree at most k that solves - div(K grad p) + b . grad p + c p = f with K grad p polynomial of degree k - 1, then the assembled operator applied to the unknowns of p equals the assembled source term plus the weak term with the normal flux, in every row; advection and reaction are arbitrary.", "quantifier": "every mesh of triangles, orientation of the edges, mixed Strong and Weak boundary, order, diffusion, advection and reaction", "why_tests_cant": "The patch test must hold for all meshes and all polynomials; it fails on particular orientations of edges.", "anchors": ["PolyDiM/src/PDETools/Assembler/assembler_PCC_2D_functions.cpp:assemble_elliptic_operator,assemble_source_term,assemble_weak_term,evaluate_function_on_dofs", "PolyDiM/src/PDETools/LocalSpace/LocalSpace_PCC_2D.cpp:CreateLocalSpace,BasisFunctionsValuesOnEdge"]}
{"id": "C108", "title": "Finite element: the assembled system has one solution", "statement": "On a mesh of triangles with positive definite diffusion, nonnegative reaction and no advection, a rule with positive weights and every cell connected to a Strong vertex through cells sharing vertices, the energy of the assembled operator is positive on every nonzero vector, and for all right-hand sides and strong values the system has exactly one solution.", "quantifier": "every mesh of triangles, order, coefficients, right-hand sides and strong values", "why_tests_cant": "Definiteness is about all vectors on all meshes.", "anchors": ["PolyDiM/src/PDETools/Assembler/assembler_PCC_2D_functions.cpp:assemble_elliptic_operator", "PolyDiM/src/PDETools/LocalSpace/LocalSpace_PCC_2D.cpp:BasisFunctionsDerivativeValues"]}
{"id": "C109", "title": "Finite element: polynomial solutions are computed exactly", "statement": "Under the hypotheses of the patch test without advection and of solvability, with the strong values computed by assemble_strong_solution from the boundary values, the only solution of the system assembled on a mesh of triangles has zero L2 and H1 errors.", "quantifier": "every mesh of triangles, order, coefficients, polynomial solution, mixed boundary conditions", "why_tests_cant": "The whole chain of drivers must be consistent for all meshes and data.", "anchors": ["PolyDiM/src/PDETools/Assembler/assembler_PCC_2D_functions.cpp:assemble_elliptic_operator,assemble_source_term,assemble_weak_term,assemble_strong_solution,compute_error_L2,compute_error_H1"]}
{"id": "C110", "title": "Mixed virtual element: the velocity space on a polygon", "statement": "On every polygon the velocity space of order k is created; it has k + 1 unknowns on each edge, one for each gradient of a scaled monomial of degree 1 to k and one for each of the k (k + 1) / 2 remaining vector polynomials. The first vector polynomials are the gradients of the scaled monomials of degree 1 to k + 1, and every pair of polynomials of degree k is a combination of the vector polynomials in exactly one way.", "quantifier": "every polygon, order, and solver and decomposition used for the matrices", "why_tests_cant": "All polygons and orders; independence is about all coefficients.", "anchors": ["PolyDiM/src/VEM/MCC/2D/VEM_MCC_2D_Velocity_LocalSpace.cpp:CreateLocalSpace,InitializeProjectorsComputation", "PolyDiM/src/VEM/MCC/2D/VEM_MCC_2D_Velocity_LocalSpace.cpp:ComputeValuesOnBoundary"]}
{"id": "C111", "title": "Mixed virtual element: what the values are", "statement": "For any values of the unknowns, the values of the velocity (at the quadrature points and at any points) are those of a field P of two polynomials of degree k and the divergence values those of a polynomial D of degree k; for every polynomial m of degree k + 1 the integral of P . grad m is the boundary integral of m times the normal unknowns minus the integral of m D, the moments of P against the remaining vector polynomials are the internal unknowns, and the moments of D are given by the boundary and gradient unknowns. The values with the unknowns of a field of degree k are the field.", "quantifier": "every polygon, order, vector of unknowns, test polynomial and set of points", "why_tests_cant": "A projection is characterised by its action on all unknowns and all test polynomials.", "anchors": ["PolyDiM/src/VEM/MCC/2D/VEM_MCC_2D_Velocity_LocalSpace.cpp:ComputeL2Projectors,ComputeDivergenceCoefficients", "PolyDiM/src/VEM/MCC/2D/VEM_MCC_2D_Velocity_LocalSpace.hpp:ComputeBasisFunctionsValues,ComputeBasisFunctionsDivergenceValues"]}
{"id": "C112", "title": "Mixed virtual element: divergence and conservation", "statement": "The divergence values with the unknowns of a field of degree k + 1 are the divergence of the field; for any unknowns the sum of the divergence over the cell is the sum of what flows out of the edges; and two cells that share an edge seen in opposite directions have the same points on it and, with the same unknowns, opposite flows.", "quantifier": "every polygon, order, field of degree k + 1, vector of unknowns, pair of cells sharing an edge", "why_tests_cant": "Conservation must hold for all unknowns and all orientations of the edges.", "anchors": ["PolyDiM/src/VEM/MCC/2D/VEM_MCC_2D_Velocity_LocalSpace.cpp:ComputeValuesOnBoundary,ComputeDivergenceCoefficients"]}
{"id": "C113", "title": "Mixed virtual element: the stabilisation", "statement": "The stabilisation matrix is symmetric; the energy of any unknowns is the measure times the sum of the squares of the differences between the unknowns and those of the projected field on the edges (the internal unknowns of the projected field are the given ones); it is zero on the unknowns of every field of degree k.", "quantifier": "every polygon, order, vector of unknowns and polynomial field", "why_tests_cant": "A statement about all vectors of unknowns.", "anchors": ["PolyDiM/src/VEM/MCC/VEM_MCC_Utilities.hpp:ComputeDofiDofiStabilizationMatrix", "PolyDiM/src/VEM/MCC/VEM_MCC_Utilities.hpp:ComputePolynomialBasisDofs"]}
{"id": "C114", "title": "Mixed virtual element: the pressure space", "statement": "The pressure space created by itself leaves its change of basis matrix empty, and asking it for values is undefined behaviour (a size mismatch in a product); completed with the change of basis of the velocity space its values at the quadrature points and at any points are the scaled monomials of degree up to k and its matrix H holds their inner products.", "quantifier": "every polygon, order and set of points", "why_tests_cant": "The failure and the values are claimed for all polygons and orders.", "anchors": ["PolyDiM/src/VEM/MCC/2D/VEM_MCC_2D_Pressure_LocalSpace.cpp:CreateLocalSpace", "PolyDiM/src/VEM/MCC/2D/VEM_MCC_2D_Pressure_LocalSpace.hpp:ComputeBasisFunctionsValues"]}
{"id": "C115", "title": "Mixed virtual element: solvability on a cell", "statement": "The divergence of the velocity space reaches every polynomial of degree k; the mass matrix plus the stabilisation is positive definite; hence the mixed problem of a cell (mass plus stabilisation, divergence against pressures) has only the zero solution with zero data.", "quantifier": "every polygon, order, vectors of unknowns", "why_tests_cant": "Definiteness and surjectivity are about all vectors on all polygons.", "anchors": ["PolyDiM/src/VEM/MCC/2D/VEM_MCC_2D_Velocity_LocalSpace.cpp:ComputeL2Projectors,ComputeDivergenceCoefficients", "PolyDiM/src/VEM/MCC/VEM_MCC_Utilities.hpp:ComputeDofiDofiStabilizationMatrix"]}
{"id": "C116", "title": "Mixed driver: the assembled system", "statement": "The driver of the mixed problem succeeds whenever the local spaces return matrices of the right sizes and the Strong fluxes of an edge do not depend on the cell. The matrix and the right-hand side it returns are, at any vectors of free unknowns, the residual of the discrete problem: for each velocity unknown the sum over the cells of the quadrature of (K u) . v - p (div v + b . v) plus the stabilisation times the greatest coefficient of K, plus the boundary terms of the Weak edges; for each pressure unknown the sum of the quadrature of (div u + c p - f) q. Strong unknowns have the boundary values.", "quantifier": "every mesh, numbering, local space, coefficients, boundary data, vectors of unknowns", "why_tests_cant": "Equality of an assembled system with a discrete problem is about all meshes and vectors.", "anchors": ["PolyDiM/examples/Elliptic_MCC_2D/src/assembler.cpp:Assemble,ComputeStrongTerm,ComputeWeakTerm", "PolyDiM/src/PDETools/LocalSpace/LocalSpace_MCC_2D.cpp:CreateLocalSpace,VelocityBasisFunctionsValues"]}
{"id": "C117", "title": "Mixed driver: patch test on polygons", "statement": "If velocity and pressure are polynomials of degree k that satisfy the equations, the Weak data are the pressure, the Strong data the normal velocity and every other edge is inside the domain, then the unknowns of the exact velocity and the coefficients of the exact pressure satisfy every assembled equation.", "quantifier": "every mesh of polygons, order, coefficients (advection included), polynomial solution", "why_tests_cant": "One equation per unknown, for all meshes and all polynomials.", "anchors": ["PolyDiM/examples/Elliptic_MCC_2D/src/assembler.cpp:Assemble", "PolyDiM/src/VEM/MCC/2D/VEM_MCC_2D_Velocity_LocalSpace.cpp:CreateLocalSpace", "PolyDiM/src/VEM/MCC/2D/VEM_MCC_2D_Pressure_LocalSpace.cpp:CreateLocalSpace"]}
{"id": "C118", "title": "Mixed driver: one solution", "statement": "With K positive definite, no advection and a reaction that is not negative the assembled matrix of the mixed virtual element is invertible as soon as from every cell the boundary that is not Strong can be reached through edges that are not Strong.", "quantifier": "every mesh of polygons, order, coefficients, right-hand side", "why_tests_cant": "Invertibility of a matrix of unbounded size.", "anchors": ["PolyDiM/examples/Elliptic_MCC_2D/src/assembler.cpp:Assemble", "PolyDiM/src/VEM/MCC/VEM_MCC_Utilities.hpp:ComputeDofiDofiStabilizationMatrix"]}
{"id": "C119", "title": "Mixed driver: exact solutions are found and reported with zero error", "statement": "Under the hypotheses of the patch test and of unique solvability any vector solving the assembled system has the unknowns of the exact velocity and the exact pressure as polynomial on every cell, and the post-processing reports zero for the residual, the pressure error, the super-convergent pressure error and the velocity error.", "quantifier": "every mesh of polygons, order, coefficients and polynomial solution", "why_tests_cant": "A statement about all meshes and solutions.", "anchors": ["PolyDiM/examples/Elliptic_MCC_2D/src/assembler.cpp:Assemble,PostProcessSolution"]}
{"id": "C120", "title": "Mixed driver: conservation of mass", "statement": "For every solution of the assembled system: on every cell the sum of the fluxes through its edges plus the integral of the reaction is the integral of the source; what leaves a cell through an edge enters the cell on the other side; over the whole mesh the fluxes through the boundary balance source and reaction; without reaction the divergence of the velocity is the source at every quadrature point if the source is a polynomial of degree k.", "quantifier": "every mesh of polygons, order, coefficients, boundary data and solution", "why_tests_cant": "Conservation must hold on every cell of every mesh for all data.", "anchors": ["PolyDiM/examples/Elliptic_MCC_2D/src/assembler.cpp:Assemble", "PolyDiM/src/VEM/MCC/2D/VEM_MCC_2D_Velocity_LocalSpace.cpp:CreateLocalSpace"]}
{"id": "C121", "title": "Mixed driver: the reported errors", "statement": "For any vector of unknowns the numbers reported per cell are the quadratures of the squared difference between the discrete fields and the exact ones, of the squared fields and of the pressures; the super-convergent error compares with the L2 projection of the exact pressure; the totals are the square roots of the sums; the residual norm is the Euclidean norm of the residual of the assembled system; the mesh size is the greatest diameter.", "quantifier": "every mesh, local space, vector of unknowns and exact solution", "why_tests_cant": "Quantifies over all functions and vectors.", "anchors": ["PolyDiM/examples/Elliptic_MCC_2D/src/assembler.cpp:PostProcessSolution"]}
{"id": "C122", "title": "Heat driver: the two matrices", "statement": "The matrices assembled once succeed for every mesh whose cells return values of the right sizes; all their entries lie inside the range of free and Strong unknowns, and row r applied to any values of the unknowns is the sum over the cells of the quadrature of kappa grad u . grad v plus the stabilisation times the greatest value of kappa (for the first matrix), and of u v plus the second stabilisation (for the second), tested with free unknown r.", "quantifier": "every mesh, numbering, local space, diffusion and vector of unknowns", "why_tests_cant": "Equality of assembled matrices with discrete forms is about all meshes and vectors.", "anchors": ["PolyDiM/examples/Parabolic_PCC_2D/src/assembler.cpp:StaticAssemble"]}
{"id": "C123", "title": "Heat driver: the data of a time", "statement": "The data assembled at a time succeed; the load of every free unknown is the quadrature of the source plus that of the Weak data on the Weak edges; the value of each Strong unknown of a vertex or an edge of a cell is the boundary function at its point, and it is zero for the others.", "quantifier": "every mesh, numbering, local space, source and boundary functions, time", "why_tests_cant": "All meshes, all unknowns, all functions.", "anchors": ["PolyDiM/examples/Parabolic_PCC_2D/src/assembler.cpp:Assemble,ComputeStrongTerm,ComputeWeakTerm"]}
{"id": "C124", "title": "Heat driver: the reports are the theta method", "statement": "The run gives one report for each time. The first holds the unknowns of the initial function (its Strong values included: not the boundary function at the initial time). Each of the others is the solution of the step of the theta method from the previous report: for every free unknown the mass of the increment is the time step times the weighted sum of load minus stiffness at the two times; its Strong values are those of the boundary function at its time, its residual is zero, and its errors are those of the exact solution at its time.", "quantifier": "every mesh, numbering, local space, problem, theta, time step and list of times", "why_tests_cant": "An induction over any number of steps, for all problems.", "anchors": ["PolyDiM/examples/Parabolic_PCC_2D/main.cpp:main", "PolyDiM/examples/Parabolic_PCC_2D/src/assembler.cpp:StaticAssemble,Assemble,PostProcessSolution,ComputeInitalCondition"]}
{"id": "C125", "title": "Heat driver: implicit steps are uniquely solvable, the explicit one may not be", "statement": "With the virtual element every step with theta > 0, positive time step and positive diffusion has exactly one solution, with or without Strong unknowns. The mass matrix annihilates the unknowns of every polynomial of degree k orthogonal to degree k - 1 on every cell, so with theta = 0 (the default) and no Strong unknowns the matrix of the step is singular on every mesh that has such a polynomial.", "quantifier": "every mesh of polygons, order, diffusion, theta and time step", "why_tests_cant": "Invertibility of a matrix of unbounded size.", "anchors": ["PolyDiM/examples/Parabolic_PCC_2D/src/assembler.cpp:StaticAssemble", "PolyDiM/examples/Parabolic_PCC_2D/main.cpp:main", "PolyDiM/examples/Parabolic_PCC_2D/src/program_configuration.hpp:Theta"]}
{"id": "C126", "title": "Heat driver: exact runs", "statement": "If at every time the solution is a polynomial of degree k in space that satisfies the equation with the given data, and the increments from time to time are the time step times the weighted rates (solutions of degree one in time, or of degree two when theta is 1/2), then every report holds the unknowns of the exact solution and has zero L2 and H1 errors.", "quantifier": "every mesh of polygons, order, number of steps, theta, polynomial solution, mixed boundary conditions", "why_tests_cant": "Exactness of a recursion of any length on all meshes.", "anchors": ["PolyDiM/examples/Parabolic_PCC_2D/main.cpp:main", "PolyDiM/examples/Parabolic_PCC_2D/src/assembler.cpp:StaticAssemble,Assemble,PostProcessSolution,ComputeInitalCondition"]}
{"id": "C127", "title": "Heat driver: distance of two runs does not grow", "statement": "For theta at least 1/2, two runs of the same problem from two initial functions have the same Strong values from the second report on, and once they agree the quadratic forms of both matrices at the difference of the free unknowns are non-negative and do not grow from report to report.", "quantifier": "every mesh, local space with a non-negative stabilisation, problem, pair of initial functions, number of steps", "why_tests_cant": "Stability is a statement about all initial data and any number of steps.", "anchors": ["PolyDiM/examples/Parabolic_PCC_2D/main.cpp:main", "PolyDiM/examples/Parabolic_PCC_2D/src/assembler.cpp:StaticAssemble"]}
{"id": "C128", "title": "Heat driver: times and steps", "statement": "The times of the reports are spread over the whole interval by the given fractions while every step advances by the configured time step: on a mesh without Strong unknowns the solution a + t is reported exactly with the time t0 + j h at the j-th report, whose time is t0 + (t1 - t0) j h; the two differ at every report after the first unless the interval has length 1.", "quantifier": "every mesh of polygons, order, interval, time step and number of steps", "why_tests_cant": "The mismatch depends on the interval: tests on [0, 1] do not see it.", "anchors": ["PolyDiM/examples/Parabolic_PCC_2D/src/program_utilities.cpp:create_time_steps", "PolyDiM/examples/Parabolic_PCC_2D/main.cpp:main"]}
{"id": "C129", "title": "Divergence free VEM: spaces are created with matching sizes", "statement": "For every order k >= 2 and every polygon, full and reduced: the velocity space is created; it has two dofs per point of the boundary, (k - 2)(k - 1)/2 dofs of the rotated fields and, if full, k(k + 1)/2 - 1 divergence dofs. The pressure space is created, has one function more than the divergence dofs, the same quadrature, the scaled monomials as values at every point and their mass matrix.", "quantifier": "every order from 2, polygon, quadrature rule of the required degree, exact solver, content of fresh storage", "why_tests_cant": "All orders and polygons; sizes must match for the coupling at every order.", "anchors": ["PolyDiM/src/VEM/DF_PCC/2D/VEM_DF_PCC_2D_Velocity_LocalSpace.cpp:CreateLocalSpace", "PolyDiM/src/VEM/DF_PCC/2D/VEM_DF_PCC_2D_Reduced_Velocity_LocalSpace.cpp:CreateLocalSpace", "PolyDiM/src/VEM/DF_PCC/2D/VEM_DF_PCC_2D_Pressure_LocalSpace.cpp:CreateLocalSpace", "PolyDiM/src/VEM/DF_PCC/2D/VEM_DF_PCC_2D_ReferenceElement.hpp:Create", "PolyDiM/src/VEM/DF_PCC/2D/VEM_DF_PCC_2D_Reduced_ReferenceElement.hpp:Create"]}
{"id": "C130", "title": "Divergence free VEM: the divergence", "statement": "For every vector of dofs, with t its trace on the boundary (the polynomial of degree k on each edge through the values of the dofs): the integral of the reported divergence is the flux of t out of the polygon, its moments against the monomials after the first are the divergence dofs, and it is a polynomial of degree k - 1 (constant in the reduced space). The matrix of divergence values gives it at every quadrature point.", "quantifier": "every order from 2, polygon, vector of dofs", "why_tests_cant": "An identity for all functions of the space.", "anchors": ["PolyDiM/src/VEM/DF_PCC/2D/VEM_DF_PCC_2D_Velocity_LocalSpace.cpp:ComputeDivergenceCoefficients", "PolyDiM/src/VEM/DF_PCC/2D/VEM_DF_PCC_2D_Reduced_Velocity_LocalSpace.cpp:ComputeDivergenceCoefficients", "PolyDiM/src/VEM/DF_PCC/2D/VEM_DF_PCC_2D_Velocity_LocalSpace.hpp:ComputeBasisFunctionsDivergenceValues"]}
{"id": "C131", "title": "Divergence free VEM: the L2 projection", "statement": "The projection of degree k of every function of the space satisfies the divergence theorem with its trace and its divergence for every polynomial g of degree k + 1 (the integral of the projection times grad g is the flux of g t minus the integral of g times the divergence); its moments against the rotated fields are the dofs, and beyond them those of the gradient projection; the projection of degree k - 2 has the same moments of degree k - 2.", "quantifier": "every order from 2, polygon, vector of dofs, polynomial of degree k + 1", "why_tests_cant": "An identity for all functions and all test polynomials.", "anchors": ["PolyDiM/src/VEM/DF_PCC/2D/VEM_DF_PCC_2D_Velocity_LocalSpace.cpp:ComputeCMatrixkm2,ComputeL2Projectors", "PolyDiM/src/VEM/DF_PCC/2D/VEM_DF_PCC_2D_Reduced_Velocity_LocalSpace.cpp:ComputeCMatrixkm2,ComputeL2Projectors"]}
{"id": "C132", "title": "Divergence free VEM: the gradient projection and the projected derivatives", "statement": "Each component of the gradient projection is a polynomial of degree k with the mean of the projection of degree k - 2 and satisfies Green's formula with the trace for every polynomial of degree k; the four projected derivatives satisfy integration by parts with the trace for every polynomial of degree k - 1.", "quantifier": "every order from 2, polygon, vector of dofs, test polynomial", "why_tests_cant": "An identity for all functions and all test polynomials.", "anchors": ["PolyDiM/src/VEM/DF_PCC/2D/VEM_DF_PCC_2D_Velocity_LocalSpace.cpp:ComputePiNabla,ComputeL2ProjectorsOfDerivatives", "PolyDiM/src/VEM/DF_PCC/2D/VEM_DF_PCC_2D_Reduced_Velocity_LocalSpace.cpp:ComputePiNabla,ComputeL2ProjectorsOfDerivatives"]}
{"id": "C133", "title": "Divergence free VEM: polynomial fields are reproduced", "statement": "On the dofs of every field of polynomials of degree k (of constant divergence, in the reduced space) the divergence, both projections of degree k and the four projected derivatives are exactly the divergence, the field and its derivatives, and the projection of degree k - 2 has the moments of the field.", "quantifier": "every order from 2, polygon, polynomial field", "why_tests_cant": "Exactness on a space of polynomials of every degree.", "anchors": ["PolyDiM/src/VEM/DF_PCC/2D/VEM_DF_PCC_2D_Velocity_LocalSpace.cpp:CreateLocalSpace", "PolyDiM/src/VEM/DF_PCC/2D/VEM_DF_PCC_2D_Reduced_Velocity_LocalSpace.cpp:CreateLocalSpace"]}
{"id": "C134", "title": "Divergence free VEM: pressures and divergences match", "statement": "For every function the trace of the projected gradient is the divergence at every point; a function whose divergence is orthogonal to every pressure has zero divergence at every point; every polynomial of the pressure space is the divergence of a function of the space.", "quantifier": "every order from 2, polygon, vector of dofs, pressure", "why_tests_cant": "Pointwise divergence freedom and surjectivity are statements about whole spaces.", "anchors": ["PolyDiM/src/VEM/DF_PCC/2D/VEM_DF_PCC_2D_Velocity_LocalSpace.cpp:ComputeDivergenceCoefficients,ComputeL2ProjectorsOfDerivatives", "PolyDiM/src/VEM/DF_PCC/2D/VEM_DF_PCC_2D_Pressure_LocalSpace.cpp:CreateLocalSpace"]}
{"id": "C135", "title": "Divergence free VEM: the stabilisation", "statement": "The two stabilisation matrices are square of the size of the space and symmetric; the form of the matrix at any vector is the factor (1, or the measure) times the sum of the squares of the differences between the dofs of the projection and those of the vector; the matrix annihilates the dofs of the polynomial fields of degree k (of constant divergence if reduced). The other two projections throw.", "quantifier": "every order from 2, polygon, vector of dofs", "why_tests_cant": "Symmetry, positivity and kernel for all vectors.", "anchors": ["PolyDiM/src/VEM/DF_PCC/2D/VEM_DF_PCC_2D_Velocity_LocalSpace.hpp:ComputeDofiDofiStabilizationMatrix", "PolyDiM/src/VEM/DF_PCC/VEM_DF_PCC_Utilities.hpp:ComputeDofiDofiStabilizationMatrix", "PolyDiM/src/VEM/DF_PCC/2D/VEM_DF_PCC_2D_Velocity_LocalSpace.cpp:ComputePolynomialBasisDofs"]}
{"id": "C136", "title": "Divergence free VEM: values at points", "statement": "At the quadrature points and at any others, the matrices of values and of derivative values of each projection, component and direction give, applied to any dofs, the value of the corresponding polynomial there (in the order component first, direction second); the projections that a call does not support throw.", "quantifier": "every order from 2, polygon, list of points, vector of dofs, kind of projection", "why_tests_cant": "All points and all functions.", "anchors": ["PolyDiM/src/VEM/DF_PCC/2D/VEM_DF_PCC_2D_Velocity_LocalSpace.hpp:ComputeBasisFunctionsValues,ComputeBasisFunctionsDerivativeValues", "PolyDiM/src/VEM/DF_PCC/VEM_DF_PCC_Utilities.hpp:ComputeBasisFunctionsValues,ComputeBasisFunctionsDerivativeValues"]}
{"id": "C137", "title": "Elliptic driver on segments: the assembled system", "statement": "On every network of segments the assembly succeeds; its matrix is symmetric with indices among the free unknowns; for all vectors u and v of free unknowns, v times (matrix u minus right-hand side) is the sum over the cells of the quadrature of K u' v' + c u v - f v minus the boundary data at the Weak ends times v (minus at the first end, plus at the second), where u has the Strong data at the Strong vertices and v is zero there. u and v are the functions through their values in the nodal basis of degree k.", "quantifier": "every order from 1, both kinds of nodes, network (any number of cells at a vertex, any directions), quadrature rule, coefficients, boundary data, vectors", "why_tests_cant": "An identity for all networks and all pairs of functions.", "anchors": ["PolyDiM/examples/Elliptic_PCC_1D/src/assembler.cpp:Assemble,ComputeStrongTerm,ComputeWeakTerm", "PolyDiM/src/FEM/PCC/1D/FEM_PCC_1D_ReferenceElement.hpp:Create", "PolyDiM/src/FEM/PCC/1D/FEM_PCC_1D_LocalSpace.cpp:CreateLocalSpace"]}
{"id": "C138", "title": "Elliptic driver on segments: patch test", "statement": "If the exact solution is a polynomial of degree k along each cell, with polynomial flux of degree k + 1, continuous, with fluxes balanced at the vertices, then its values at the nodes solve the assembled system exactly and the discrete function is the exact solution on every cell.", "quantifier": "every order, network, exact solution of degree k, rule exact of degree 2k", "why_tests_cant": "Exactness for all networks and polynomial solutions.", "anchors": ["PolyDiM/examples/Elliptic_PCC_1D/src/assembler.cpp:Assemble"]}
{"id": "C139", "title": "Elliptic driver on segments: symmetric positive definite, one solution", "statement": "With positive diffusion and nonnegative reaction, a rule of positive weights exact of degree 2k - 2, and every cell connected through cells to a Strong vertex, the matrix is symmetric positive definite and the system has exactly one solution for every right-hand side.", "quantifier": "every order, network, coefficients, right-hand side", "why_tests_cant": "Positive definiteness quantifies over all vectors and networks; the driver hands the matrix to a Cholesky solver.", "anchors": ["PolyDiM/examples/Elliptic_PCC_1D/src/assembler.cpp:Assemble"]}
{"id": "C140", "title": "Elliptic driver on segments: reported errors", "statement": "The residual norm is the norm of matrix times solution minus right-hand side; the L2 numbers of a cell are the quadratures of (u - p)^2 and u^2, the H1 numbers those of (u' - t)^2 and u'^2, with t the first two components of the exact gradient times the unit tangent; totals are the roots of the sums; the mesh size is the largest length. At the solution of a polynomial problem the residual and the L2 errors are 0, but the H1 error is the omitted third component: it is 0 when no cell leaves a plane of constant z and is not 0 for some network that does (negative finding).", "quantifier": "every order, network, exact solution, vector of unknowns", "why_tests_cant": "The numbers for all networks in space; tests use networks in the plane.", "anchors": ["PolyDiM/examples/Elliptic_PCC_1D/src/assembler.cpp:PostProcessSolution"]}
{"id": "C141", "title": "Elliptic driver on segments: values at the vertices", "statement": "The values reported at the vertices are those of the discrete function at the ends of every cell that has the vertex (the same from each cell), the Strong data at the Strong vertices, and the exact solution at the coordinates of the vertex.", "quantifier": "every order, network, vector of unknowns, vertex", "why_tests_cant": "All vertices of all networks.", "anchors": ["PolyDiM/examples/Elliptic_PCC_1D/src/assembler.cpp:PostProcessSolution"]}
{"id": "C142", "title": "Elasticity driver: matrix and right-hand side of a cell", "statement": "For every scalar element of n functions the cell matrix and right-hand side of the vector problem have size 2n (first the unknowns of the first component, then those of the second); for all displacements u and v, v times matrix times u is the quadrature of 2 mu e(u):e(v) + lambda div u div v, with e the symmetric gradient, plus the largest |mu| at the points times the scalar stabilisation of each component; the right-hand side times v is the quadrature of f . v. Finding: the beam and Cook's membrane compute mu as E (2 (1 + nu)), 4 (1 + nu)^2 times the coefficient of E and nu.", "quantifier": "every scalar element (tables of values and derivatives, stabilisation matrix), rule, coefficients, force, displacements", "why_tests_cant": "An identity for all elements and pairs of displacements.", "anchors": ["PolyDiM/examples/Elastic_PCC_2D/src/assembler.cpp:Assemble", "PolyDiM/examples/Elastic_PCC_2D/src/local_space.cpp:BasisFunctionsValues,BasisFunctionsDerivativeValues,StabilizationMatrix", "PolyDiM/examples/Elastic_PCC_2D/src/test_definition.hpp:LinearElasticity_Beam"]}
{"id": "C143", "title": "Elasticity driver: symmetry, sign and rigid motions of the cell matrix", "statement": "The cell matrix is symmetric when the scalar stabilisation is; with nonnegative weights and coefficients and a nonnegative stabilisation it is nonnegative; with positive weights and mu, a displacement of zero energy has zero symmetric gradient at every point and zero stabilisation; whenever the scalar element reproduces the gradients of 1, x, y and its stabilisation vanishes on them, translations and the rotation are in the kernel. The virtual element meets these hypotheses for every order and polygon, and with positive rules, mu > 0 and lambda >= 0 the kernel of its cell matrix is exactly the translations and the rotation.", "quantifier": "every scalar element, coefficients, displacement; every order and polygon for the virtual element", "why_tests_cant": "Positivity and kernels quantify over all displacements and all cells.", "anchors": ["PolyDiM/examples/Elastic_PCC_2D/src/assembler.cpp:Assemble", "PolyDiM/examples/Elastic_PCC_2D/src/local_space.cpp:StabilizationMatrix"]}
{"id": "C144", "title": "Elasticity driver: errors of a cell", "statement": "The L2 numbers of a cell are the quadratures of |u - p|^2 and |u|^2, the H1 numbers those of the squares of the four derivatives of u - p and of u; with the virtual element of order k both errors are 0 when p is a polynomial displacement of degree k and u its unknowns.", "quantifier": "every scalar element, exact displacement and derivatives, vector of unknowns; every order and polygon", "why_tests_cant": "All displacements and cells.", "anchors": ["PolyDiM/examples/Elastic_PCC_2D/src/assembler.cpp:PostProcessSolution"]}
{"id": "C145", "title": "Elasticity driver: the assembled matrices and forces", "statement": "On every mesh whose cells have as many scalar functions as unknowns the loop over the cells succeeds; the matrix of the free unknowns and the one of the strong unknowns have indices in range (first the unknowns of the first component, then those of the second); for all free values u, strong values g and free values v, v times (matrices applied to u and g minus forces) is the sum over the cells of 2 mu e(u):e(v) + lambda div u div v plus the stabilisation minus the work f . v, where u has the values g at the Strong unknowns and v is zero there. The boundary terms of the right-hand side are the subject of C148.", "quantifier": "every mesh and numbering with two copies of one scalar space, element of each cell, coefficients, force, vectors", "why_tests_cant": "A sum over all cells of any mesh, for all pairs of displacements.", "anchors": ["PolyDiM/examples/Elastic_PCC_2D/src/assembler.cpp:Assemble", "PolyDiM/src/PDETools/Assembler/Assembler_Utilities.hpp:assemble_local_matrix_to_global_matrix"]}
{"id": "C146", "title": "Elasticity driver: symmetric positive definite, one solution", "statement": "With the virtual element of any order on any mesh of polygons, positive rules, mu > 0 and lambda >= 0, when each cell has two vertices at different points that are Strong or belong to a cell already held so, the assembled matrix is symmetric and positive definite, and for every right-hand side, boundary term and strong values the system has exactly one solution.", "quantifier": "every order, mesh, boundary marking, coefficients, right-hand side and strong values", "why_tests_cant": "Positive definiteness quantifies over all vectors, meshes and coefficients.", "anchors": ["PolyDiM/examples/Elastic_PCC_2D/src/assembler.cpp:Assemble", "PolyDiM/examples/Elastic_PCC_2D/src/local_space.cpp:CreateLocalSpace,StabilizationMatrix"]}
{"id": "C147", "title": "Elasticity driver: strong values of the two components", "statement": "Computing the strong values succeeds and writes, for each component h and each Strong vertex or edge of a cell, the boundary value of component h (of the marker of the entity, at the point of the unknown) at the number of the unknown plus h times the number of Strong scalar unknowns; the other entries stay 0; the values do not depend on the cell from which an entity is seen.", "quantifier": "every mesh, numbering, boundary marking, boundary function, component, entity", "why_tests_cant": "All meshes and all orders in which cells visit shared entities.", "anchors": ["PolyDiM/examples/Elastic_PCC_2D/src/assembler.cpp:ComputeStrongTerm", "PolyDiM/src/PDETools/Assembler/Assembler_Utilities.hpp:count_dofs"]}
{"id": "C148", "title": "Elasticity driver: contributions of the Weak edges", "statement": "The boundary contribution to equation r of component h is the sum over the cells and their Weak edges of the quadrature of component h of the traction (of the marker of the edge, at the point of the edge in its own orientation) times the function of unknown r on the edge; nothing is added for the unknowns of Strong entities, and nothing of one component reaches the equations of the other.", "quantifier": "every mesh, numbering, boundary marking, traction, rule on the edges, unknown and component", "why_tests_cant": "A sum over all edges of any mesh.", "anchors": ["PolyDiM/examples/Elastic_PCC_2D/src/assembler.cpp:ComputeWeakTerm", "PolyDiM/src/PDETools/Assembler/Assembler_Utilities.hpp:count_dofs"]}
{"id": "C149", "title": "Elasticity driver: the system handed to the solver and its solution", "statement": "Assemble succeeds; for all free values u and v, v times (matrix applied to u minus right-hand side) is the sum over the cells of 2 mu e(u):e(v) + lambda div u div v plus the stabilisation minus the work of the forces, minus the work of the tractions of the Weak edges, where u has the strong values that Assemble returns (those of C147) and v is zero at the Strong unknowns. With the virtual element, positive rules, mu > 0, lambda >= 0 and cells that cannot move rigidly this system has exactly one solution, for every force, boundary value and traction.", "quantifier": "every mesh, numbering, boundary marking, element of each cell, coefficients, force, boundary values, tractions, vectors", "why_tests_cant": "An identity for all pairs of displacements on all meshes; existence and uniqueness for all data.", "anchors": ["PolyDiM/examples/Elastic_PCC_2D/src/assembler.cpp:Assemble", "PolyDiM/examples/Elastic_PCC_2D/src/assembler.cpp:ComputeStrongTerm", "PolyDiM/examples/Elastic_PCC_2D/src/assembler.cpp:ComputeWeakTerm"]}
{"id": "C150", "title": "Elasticity driver: patch test of the virtual element", "statement": "With the virtual element of order k on any mesh of polygons, if the displacement has polynomial components of degree at most k, its stress 2 mu e(u) + lambda div u I is a polynomial of degree at most k - 1 without divergence, there is no volume force, the boundary values are those of the displacement and the tractions those of the stress, then the degrees of freedom of the displacement satisfy every equation that Assemble produces; when mu > 0, lambda >= 0, the rules are positive and no cell can move rigidly, they are the only solution, so what the driver computes is the displacement itself.", "quantifier": "every order, mesh of polygons, boundary marking, coefficients and polynomial displacement in equilibrium without volume forces", "why_tests_cant": "A patch test run on one mesh says nothing of the others; the statement quantifies over meshes, orders and displacements.", "anchors": ["PolyDiM/examples/Elastic_PCC_2D/src/assembler.cpp:Assemble", "PolyDiM/examples/Elastic_PCC_2D/src/local_space.cpp:CreateLocalSpace,BasisFunctionsDerivativeValues,StabilizationMatrix"]}
