# Formal model of PolyDiM in Rocq (Coq 8.16.1)

Source: `/repo/PolyDiM/src` (read as text, never built or run, unchanged).
Claims: `properties.jsonl`.  Status and theorem names: `MANIFEST.json`.  Wrong programs tried: `seeded/LOG.jsonl`.

## 1. How the code is modelled

The model is a set of total Gallina functions, one for each C++ function, each with a comment that cites the file and the
lines.  Loops are `for_loop` / `for_from` / `foldM` over the same index ranges and in the same order; writes into sized
buffers are writes at a position of a list or of a matrix; nothing is replaced by a closed form.

* **Outcomes** (`Base.v`).  `Ok v`, `Throw` (a C++ exception: `throw`, `.at` out of range, a gedim `Assert`) and `UB`
  (undefined behaviour: `operator[]` out of range, an Eigen expression with wrong sizes, reading past the end) are distinct.
  `Throw` carries no message.  Theorems that say a call succeeds therefore also say it neither throws nor is undefined.
* **Integers.**  `unsigned int`, `size_t` and vector positions are `nat`; `int` indices that may be negative are `Z`.
  Wrap-around is modelled where the code depends on it (the descending loops over `unsigned int` of the triangle, quadrilateral
  and tetrahedron local spaces, on 32 bits; those theorems assume that the number of basis functions fits) and is not modelled elsewhere.
* **Reals.**  `double` is the real line `R` of the standard library: no rounding.  A division whose denominator may vanish
  is guarded by a hypothesis, or, in the derivatives of the tetrahedron (`TetModel.v`), gives `None` (not a number or infinite).
  Derivatives in statements are `derivable_pt_lim` of the standard library.
* **Uninitialised storage** (a matrix that was resized and not yet written) is a universally quantified function `junk`:
  a theorem can hold only if no such entry reaches the result.
* **Eigen** matrices are records of two sizes and a coefficient function; every operation checks the sizes and is `UB` when they
  do not agree.  Blocks, segments, products and so on are modelled by their meaning.
* **Not in `/repo`.**  Gedim (meshes, geometry, quadrature tables, maps), Eigen's solvers (`partialPivLu`, `llt`,
  `SelfAdjointEigenSolver`) enter as universally quantified inputs with hypotheses written in the statement.
  Solvers are assumed to return an exact solution on nonsingular (positive definite) matrices; `GaussModel.v` exhibits a solver that
  meets the assumption, so that the hypothesis is not empty.  `Gedim::MapTriangle` is modelled explicitly
  as the affine map it is; `MapQuadrilateral` is an input assumed to be inverted by its inverse.  Gauss, Gauss-Lobatto and triangle rules
  are inputs; where exactness is needed it is a hypothesis for the degree that is needed.

Each area has `XModel.v` (definitions only), `XSpec.v` (a small specification that does not use the model's helpers),
`XProofs*.v` (lemmas) and `XProps.v` (the property theorems, concrete cases that meet their hypotheses, `Print Assumptions`).

## 2. What is modelled

| model | code | left out |
|---|---|---|
| `DofsModel.v` | `PDETools/DOFs/DOFsManager.{hpp,cpp}`: all functions | |
| `AssemblerModel.v` | `PDETools/Assembler/Assembler_Utilities.hpp`: all functions | |
| `SparseModel.v` | `assembler_PCC_2D_functions_utilities.cpp`: conversions to and from triplets | Eigen's storage beyond the ordered columns |
| `EquationModel.v` | `PDETools/Equations/EllipticEquation.hpp`; the Navier-Stokes convective terms of `assembler_PCC_2D_functions.cpp` 1370-1412 | |
| `DriverModel.v` | `assembler_PCC_2D_functions.cpp` 91-918: evaluation of functions, source term, elliptic operator, strong values, values on the unknowns, weak term, vertex values, L2 and H1 errors | the local space of a cell is an abstract record, so the theorems hold for any of FEM, VEM, ZFEM |
| `Driver2Model.v` | `assembler_PCC_2D_functions.cpp` 36-142, 920-1368, 1414-1575: evaluation on the quadrature points, sources and operator depending on a discrete function, diffusion operator, Navier-Stokes operators; `anysotropic_diffusion_term_function` | |
| `Pcc2dModel.v` | `PDETools/LocalSpace/LocalSpace_PCC_2D.cpp`: the local space of a cell for the virtual element, the triangle and ZFEM as the drivers see it | orthogonal and inertia variants, the quadrilateral, Laplacian |
| `SpacesModel.v` | reference element creation, local size, tables of unknowns of `LocalSpace_{PCC,MCC,DF_PCC}_2D.cpp` | the dispatch of values, the 3D files |
| `MonomialsModel.v` | `Utilities/Monomials_{1D,2D,3D}.*`, `Monomials_Utilities.hpp` (Vandermonde matrices) | `MGSOrthonormalize` |
| `GBasisModel.v` | `Utilities/GBasis_{2D,3D}.*` | |
| `InertiaModel.v` | `Utilities/Inertia_Utilities.cpp` | mass and diameter (gedim) |
| `LagrangeModel.v` | `Interpolation/lagrange_1D.cpp`, `FEM/PCC/1D` | quadrature fields |
| `TriangleModel.v` | `FEM/PCC/2D/FEM_Triangle_*` | quadrature fields |
| `QuadModel.v` | `FEM/PCC/2D/FEM_Quadrilateral_*` | quadrature fields |
| `TetModel.v` | `FEM/PCC/3D/FEM_Tetrahedron_PCC_3D_ReferenceElement.hpp` | quadrature fields |
| `TetLocalModel.v` | `FEM/PCC/3D/FEM_Tetrahedron_PCC_3D_LocalSpace.{hpp,cpp}` and the three maps of `FEM_Tetrahedron_PCC_3D_ReferenceElement.hpp` | quadrature on the faces, values on an edge |
| `RtModel.v` | `FEM/MCC/2D/FEM_Triangle_RT_MCC_2D_*`, `VEM_Quadrature_2D::Compute_MCC_2D` | |
| `VemQuadModel.v` | `VEM/Quadrature/VEM_Quadrature_2D.cpp`: points and weights inside and on the edges | EdgeOrtho variants |
| `VemModel.v` | `VEM/PCC/2D/VEM_PCC_2D_{ReferenceElement,LocalSpace}.*`, `VEM_PCC_Utilities.hpp` | 3D utilities, inertia and orthogonal variants |
| `VemMccModel.v` | `VEM/MCC/2D/VEM_MCC_2D_{Velocity,Pressure}_LocalSpace.*`, the part of `VEM_MCC_Utilities.hpp` they use | the singular value decomposition and the linear solver (inputs) |
| `DfModel.v` | `VEM/DF_PCC/2D/VEM_DF_PCC_2D_{,Reduced_}{ReferenceElement,Velocity_LocalSpace,Pressure_LocalSpace}.*`, the part of `VEM_DF_PCC_Utilities.hpp` they use, `VEM_Quadrature_2D::Compute_DF_PCC_2D` | order 1 (theorems need order 2 or more), Laplacian of polynomials, values on an edge, the linear solvers (inputs) |
| `Mcc2dModel.v` | `examples/Elliptic_MCC_2D/src/assembler.cpp` (assembly, strong and weak terms, post-processing), the parts of `LocalSpace_MCC_2D.cpp` it uses | the sparse solver (a vector of unknowns is an input), export, dispatch over the variants of the mixed element other than `VEM_MCC` and `FEM_RT` |
| `ParabolicModel.v` | `examples/Parabolic_PCC_2D`: `main.cpp` (loop in time), `src/assembler.cpp` (matrices, data, initial condition, post-processing), `create_time_steps` | the sparse solver (any exact one), export, `EquispaceCoordinates` (the fractions are an input), test problems (any functions) |
| `Elliptic1dModel.v` | `examples/Elliptic_PCC_1D/src/assembler.cpp`; the quadrature and the tables of `FEM/PCC/1D` | the sparse solver (a vector of unknowns is an input), export, the creation of the network and of its geometric data (inputs), tests |
| `ElasticModel.v` | `examples/Elastic_PCC_2D/src/assembler.cpp` (the matrix, right-hand side and errors of a cell), `local_space.cpp` (values, derivatives, stabilisation of the two components) over an abstract scalar local space | boundary terms, values at the vertices, the branch without exact solution, the sparse solver, export |
| `ElasticGlobalModel.v` | `examples/Elastic_PCC_2D/src/assembler.cpp` (Assemble: the loop over the cells, the handlers with two copies of the numbering, the scatter of matrices and forces) | ComputeStrongTerm and ComputeWeakTerm (next row), the subtraction of the strong values from the right-hand side (C145 states it for given strong values) |
| `ElasticBoundaryModel.v` | `examples/Elastic_PCC_2D/src/assembler.cpp` (ComputeStrongTerm, ComputeWeakTerm, Assemble) | the tests' boundary functions are evaluated component by component; the two terms are also modelled alone, from zero; Create of the containers and the vector of the solution are not modelled |
| `TraceModel.v` | `VEM/MCC/VEM_MCC_Utilities.hpp` `MonomialTraceOnEdges` | the other utilities |
| `ZfemModel.v` | `ZFEM/PCC/2D/*` | entries of the integer maps without overflow |

Not modelled: VEM in 3D, the inertia, orthogonal and partial
VEM variants, the hexahedron, `LocalSpace_PCC_3D`, `PDE_Mesh_Utilities`, the performance analysis classes, file export.

## 3. Findings

Places where the property one would expect is false of the model, hence (up to the faithfulness of the model) of the code.
Each is a theorem; the claim was reworded to what is true.

| claim | finding | theorem |
|---|---|---|
| C10 | `CellsGlobalHasInternalDOFs` and `CellsGlobalHasBoundaryDOFs` look at the facets of a cell only, not at its whole closure: a cell with internal unknowns of its own can have the flag unset | `C10_flags_describe_closure_refuted` |
| C33 | `VanderLaplacian` is wrong in the column of x^2 in one dimension, and undefined with fewer than three monomials | `C33_vander_laplacian` |
| C39 | `signDetQ` is -1 when the determinant is positive and below a tolerance (thin elements) | `C39_sign_refuted` |
| C44, C46 | second derivatives of the FEM triangle are zero for every order above 3 and the Laplacian then throws; the Laplacian of order 3 is in the wrong order when an edge is reversed | `C44_triangle_second_derivatives_refuted`, `C46_laplacian_refuted`, `C46_laplacian_high_order_throws` |
| C47 | `Create(0)` of the tetrahedron is undefined behaviour | `C47_tetrahedron_order_0` |
| C48 | the derivatives of the tetrahedron are not numbers at points on the lattice planes, in particular at its own nodes | `C48_tetrahedron_derivatives_refuted_at_nodes` |
| C53 | the Laplacian at given points of the VEM space multiplies its two matrices in the wrong order: undefined, or a result of the wrong size | `C53_laplacian_points_refuted` |
| C54 | the trace of monomials on edges throws when an edge starts within 1e-12 of the centroid, which refuses some polygons of positive area; a coordinate within the tolerance is treated as that of the centroid (`C54_trace_near` bounds the effect); the unqualified `abs` is read as the one on doubles | `C54_accepted_refuted`, `C54_trace_throws` |
| C64 | the quadrilateral has no second derivatives: the Laplacian always throws | `C64_laplacian_unavailable` |
| C101 | the overloads of `LocalSpace_PCC_2D.cpp` that take points have no ZFEM case: the elliptic operator and the source term are never assembled on a mesh with an active ZFEM cell | `C101_zfem` |
| C114 | the mixed pressure space created by itself leaves `Qmatrix` empty; its values multiply by it: a size mismatch | `C114_alone` |
| C124 | the first report of the heat driver has the Strong values of the initial function, not those of the boundary data at the initial time | `C124_run` |
| C125 | the heat driver with the virtual element: the mass matrix uses the projection on degree k - 1 with the stabilisation of degree k; it vanishes on polynomials of degree k orthogonal to degree k - 1, so the explicit step (theta = 0, the default) can be singular | `C125_mass_kernel`, `C125_explicit`, `C125_refuted` |
| C128 | the heat driver advances by `TimeStep` while the times of data and reports advance by `(t1 - t0) TimeStep` | `C128_times` |
| C140 | the H1 error of the driver on segments leaves out the third component of the exact gradient: at the exact solution it is not 0 when a segment leaves a plane of constant z | `C140_exact`, `C140_exact_refuted` |
| C142 | the beam and Cook's membrane of the elasticity driver compute mu as E (2 (1 + nu)) instead of E / (2 (1 + nu)) | `C142_lame_refuted` |

## 4. Trusted base

* The kernel of Coq 8.16.1 (`coqc`; `coqchk -o` agrees).
* The hand translation from C++ to Gallina, with the simplifications written beside each definition.
* The axioms that `Print Assumptions` lists, all of the standard library:
  `ClassicalDedekindReals.sig_forall_dec`, `ClassicalDedekindReals.sig_not_dec`,
  `FunctionalExtensionality.functional_extensionality_dep` (these three come with the real numbers) and
  `Classical_Prop.classic` (used by some lemmas on real numbers).  No axiom is added, no kernel check is switched off, nothing is admitted.

The table below gives, for each theorem named in the manifest, the file and what `Print Assumptions` prints, abbreviated:
F = `sig_forall_dec`, N = `sig_not_dec`, E = `functional_extensionality_dep`, C = `classic`, none = closed under the global context.

| claim | theorem | file | axioms |
|---|---|---|---|
| C01 | `C01_free_dofs_numbered_once` | `DofsProps.v` | none |
| C02 | `C02_strong_dofs_numbered_once` | `DofsProps.v` | none |
| C03 | `C03_counters_add_up` | `DofsProps.v` | none |
| C04 | `C04_cells_get_requested_dofs` | `DofsProps.v` | none |
| C05 | `C05_closure_layout` | `DofsProps.v` | none |
| C05 | `C05_one_row_per_cell` | `DofsProps.v` | none |
| C06 | `C06_conformity_of_neighbours` | `DofsProps.v` | none |
| C07 | `C07_global_counts` | `DofsProps.v` | none |
| C08 | `C08_indices_split_closure` | `DofsProps.v` | none |
| C09 | `C09_creation_succeeds_iff_well_formed` | `DofsProps.v` | none |
| C10 | `C10_flags_describe_facets` | `DofsProps.v` | none |
| C10 | `C10_flags_describe_closure_refuted` | `DofsProps.v` | none |
| C11 | `C11_constant_dofs_info` | `DofsProps.v` | none |
| C12 | `C12_count_dofs_packs` | `AssemblerProps.v` | none |
| C12 | `C12_count_dofs_empty` | `AssemblerProps.v` | none |
| C13 | `C13_local_count_dofs_packs` | `AssemblerProps.v` | none |
| C14 | `C14_restriction_to_cell` | `AssemblerProps.v` | F |
| C15 | `C15_assembly_sums_local_entries` | `AssemblerProps.v` | C E F |
| C15 | `C15_assembly_sums_any_data` | `AssemblerProps.v` | C E F |
| C16 | `C16_assembled_operator_is_sum_of_local` | `AssemblerProps.v` | C E F |
| C17 | `C17_assembly_order_independent` | `AssemblerProps.v` | C E F |
| C18 | `C18_symmetry_preserved` | `AssemblerProps.v` | C E F |
| C18 | `C18_positivity_preserved` | `AssemblerProps.v` | C E F |
| C19 | `C19_round_trip` | `SparseProps.v` | E F |
| C19 | `C19_duplicates_are_summed` | `SparseProps.v` | E F |
| C20 | `C20_shifted_block` | `SparseProps.v` | E F |
| C21 | `C21_diffusion_scalar` | `EquationProps.v` | E F |
| C21 | `C21_diffusion_tensor` | `EquationProps.v` | E F |
| C21 | `C21_reaction_matrix` | `EquationProps.v` | E F |
| C21 | `C21_advection_matrix` | `EquationProps.v` | E F |
| C21 | `C21_forcing_scalar` | `EquationProps.v` | E F |
| C21 | `C21_forcing_vectorial` | `EquationProps.v` | E F |
| C22 | `C22_diffusion_spsd` | `EquationProps.v` | E F |
| C22 | `C22_reaction_spsd` | `EquationProps.v` | E F |
| C22 | `C22_tensor_spsd` | `EquationProps.v` | E F |
| C23 | `C23_diffusion_kernel` | `EquationProps.v` | E F |
| C23 | `C23_tensor_kernel` | `EquationProps.v` | E F |
| C23 | `C23_advection_kernel` | `EquationProps.v` | E F |
| C24 | `C24_newton_linearisation` | `EquationProps.v` | E F |
| C24 | `C24_convective_residual` | `EquationProps.v` | E F |
| C25 | `C25_L2_report` | `DriverProps.v` | E F N |
| C25 | `C25_H1_report` | `DriverProps.v` | E F N |
| C25 | `C25_squares` | `DriverProps.v` | E F N |
| C25 | `C25_triangle` | `DriverProps.v` | E F N |
| C25 | `C25_zero` | `DriverProps.v` | E F N |
| C25 | `C25_zero_only` | `DriverProps.v` | E F N |
| C26 | `C26_strong_values` | `DriverProps.v` | F |
| C26 | `C26_cells` | `DriverProps.v` | F |
| C27 | `C27_monomials_enumerated_once` | `MonomialsProps.v` | E F |
| C28 | `C28_index_inverts_enumeration` | `MonomialsProps.v` | E F |
| C29 | `C29_derivative_indices` | `MonomialsProps.v` | E F |
| C30 | `C30_matrices_differentiate` | `MonomialsProps.v` | E F |
| C31 | `C31_vander_evaluates` | `MonomialsProps.v` | E F |
| C32 | `C32_vander_derivatives` | `MonomialsProps.v` | E F |
| C33 | `C33_vander_laplacian` | `MonomialsProps.v` | E F |
| C34 | `C34_decomposition_2D` | `GBasisProps.v` | E F |
| C34 | `C34_vander_2D` | `GBasisProps.v` | E F |
| C35 | `C35_decomposition_3D` | `GBasisProps.v` | E F |
| C35 | `C35_vander_3D` | `GBasisProps.v` | E F |
| C36 | `C36_lagrange_nodal` | `LagrangeProps.v` | E F |
| C37 | `C37_lagrange_reproduces` | `LagrangeProps.v` | E F |
| C37 | `C37_partition_of_unity` | `LagrangeProps.v` | E F |
| C38 | `C38_lagrange_derivatives` | `LagrangeProps.v` | E F |
| C39 | `C39_inertia_2D` | `InertiaProps.v` | E F N |
| C39 | `C39_inertia_3D` | `InertiaProps.v` | E F N |
| C39 | `C39_mapped_points` | `InertiaProps.v` | E F |
| C39 | `C39_sign_refuted` | `InertiaProps.v` | E F N |
| C40 | `C40_dof_positions` | `LagrangeProps.v` | E F |
| C40 | `C40_nodal_basis` | `LagrangeProps.v` | E F |
| C40 | `C40_order_zero` | `LagrangeProps.v` | E F |
| C41 | `C41_triangle_lattice` | `TriangleProps.v` | E F |
| C42 | `C42_triangle_nodal` | `TriangleProps.v` | E F |
| C42 | `C42_triangle_reproduces` | `TriangleProps.v` | E F |
| C42 | `C42_triangle_unity` | `TriangleProps.v` | E F |
| C43 | `C43_triangle_derivatives` | `TriangleProps.v` | E F |
| C43 | `C43_triangle_local_derivatives` | `TriangleProps.v` | E F |
| C44 | `C44_triangle_second_derivatives` | `TriangleProps.v` | E F |
| C44 | `C44_triangle_second_derivatives_refuted` | `TriangleProps.v` | C E F N |
| C45 | `C45_edge_order` | `TriangleProps.v` | E F |
| C45 | `C45_edge_positions` | `TriangleProps.v` | E F |
| C45 | `C45_local_nodal` | `TriangleProps.v` | E F |
| C46 | `C46_laplacian` | `TriangleProps.v` | E F |
| C46 | `C46_laplacian_high_order_throws` | `TriangleProps.v` | E F |
| C46 | `C46_laplacian_refuted` | `TriangleProps.v` | E F |
| C47 | `C47_tetrahedron_nodes` | `TetProps.v` | E F |
| C47 | `C47_tetrahedron_nodal` | `TetProps.v` | E F |
| C47 | `C47_tetrahedron_sum_one` | `TetProps.v` | E F |
| C47 | `C47_tetrahedron_order_0` | `TetProps.v` | E F |
| C48 | `C48_tetrahedron_derivatives` | `TetProps.v` | E F |
| C48 | `C48_tetrahedron_derivatives_refuted_at_nodes` | `TetProps.v` | E F |
| C49 | `C49_internal_rule` | `VemQuadProps.v` | E F |
| C49 | `C49_internal_area` | `VemQuadProps.v` | E F |
| C49 | `C49_lobatto_perimeter` | `VemQuadProps.v` | E F |
| C49 | `C49_edges_perimeter` | `VemQuadProps.v` | E F |
| C50 | `C50_lobatto_points` | `VemQuadProps.v` | E F |
| C50 | `C50_edges_points` | `VemQuadProps.v` | E F |
| C50 | `C50_shared_edge` | `VemQuadProps.v` | E F |
| C51 | `C51_dofi_dofi` | `VemProps.v` | E F |
| C51 | `C51_d_recipe` | `VemProps.v` | E F |
| C51 | `C51_space_stabilization` | `VemProps.v` | C E F N |
| C52 | `C52_matrix_identities` | `VemProps.v` | C E F N |
| C52 | `C52_moments` | `VemProps.v` | C E F N |
| C53 | `C53_laplacian_quadrature` | `VemProps.v` | C E F N |
| C53 | `C53_laplacian_points_refuted` | `VemProps.v` | E F |
| C54 | `C54_trace_exact` | `TraceProps.v` | E F |
| C54 | `C54_trace_near` | `TraceProps.v` | E F |
| C54 | `C54_trace_throws` | `TraceProps.v` | E F |
| C54 | `C54_accepted_refuted` | `TraceProps.v` | E F |
| C55 | `C55_divergence` | `RtProps.v` | C E F N |
| C56 | `C56_piola` | `RtProps.v` | C E F N |
| C57 | `C57_numbering` | `ZfemProps.v` | none |
| C57 | `C57_all_used` | `ZfemProps.v` | none |
| C57 | `C57_space_exists` | `ZfemProps.v` | E F |
| C57 | `C57_nodes` | `ZfemProps.v` | E F |
| C58 | `C58_weights` | `ZfemProps.v` | E F |
| C58 | `C58_unisolvent` | `ZfemProps.v` | E F |
| C59 | `C59_local_size_is_closure_size` | `SpacesProps.v` | C E F |
| C59 | `C59_tables_of_unknowns` | `SpacesProps.v` | C E F |
| C59 | `C59_unknowns_created` | `SpacesProps.v` | C E F |
| C60 | `C60_segment_local_space` | `LagrangeProps.v` | E F |
| C61 | `C61_continuity_across_edge` | `TriangleProps.v` | E F |
| C62 | `C62_square_lattice` | `QuadProps.v` | E F |
| C62 | `C62_order_zero_throws` | `QuadProps.v` | none |
| C63 | `C63_square_nodal` | `QuadProps.v` | E F |
| C63 | `C63_square_reproduces` | `QuadProps.v` | E F |
| C63 | `C63_square_derivatives` | `QuadProps.v` | E F |
| C64 | `C64_edge_order` | `QuadProps.v` | E F |
| C64 | `C64_edge_positions` | `QuadProps.v` | E F |
| C64 | `C64_vertices` | `QuadProps.v` | E F |
| C64 | `C64_local_nodal` | `QuadProps.v` | E F |
| C64 | `C64_local_derivatives` | `QuadProps.v` | E F |
| C64 | `C64_laplacian_unavailable` | `QuadProps.v` | F |
| C65 | `C65_continuity_quadrilaterals` | `QuadProps.v` | E F |
| C65 | `C65_continuity_triangle_quadrilateral` | `QuadProps.v` | E F |
| C66 | `C66_velocity_size_is_closure_size` | `SpacesProps.v` | none |
| C66 | `C66_pressure_size_is_closure_size` | `SpacesProps.v` | none |
| C66 | `C66_raviart_thomas_needs_triangles` | `SpacesProps.v` | none |
| C67 | `C67_velocity_size_is_sum_of_closures` | `SpacesProps.v` | none |
| C68 | `C68_divergence_lobatto` | `VemQuadProps.v` | E F |
| C68 | `C68_divergence_edges` | `VemQuadProps.v` | E F |
| C68 | `C68_vocabulary` | `VemQuadProps.v` | E F |
| C69 | `C69_space_exists` | `VemProps.v` | E F |
| C69 | `C69_sizes` | `VemProps.v` | E F |
| C69 | `C69_well_posed` | `VemProps.v` | C E F N |
| C70 | `C70_dofs_matrix` | `VemProps.v` | E F |
| C70 | `C70_reproduction` | `VemProps.v` | C E F N |
| C71 | `C71_energy_projection` | `VemProps.v` | C E F N |
| C71 | `C71_mean_value` | `VemProps.v` | C E F N |
| C72 | `C72_derivative_projection` | `VemProps.v` | C E F N |
| C73 | `C73_values_at_points` | `VemProps.v` | E F |
| C73 | `C73_values_at_quadrature` | `VemProps.v` | E F |
| C74 | `C74_interpolation` | `DriverProps.v` | F |
| C74 | `C74_reproduced_L2` | `DriverProps.v` | E F N |
| C74 | `C74_reproduced_H1` | `DriverProps.v` | E F N |
| C75 | `C75_reproduction` | `ZfemProps.v` | E F |
| C76 | `C76_continuity` | `ZfemProps.v` | E F |
| C77 | `C77_nodal` | `ZfemProps.v` | E F |
| C78 | `C78_triangle_reproduces` | `TriangleProps2.v` | E F |
| C78 | `C78_triangle_gradient` | `TriangleProps2.v` | E F |
| C79 | `C79_dual_basis` | `RtProps.v` | C E F N |
| C80 | `C80_reproduces` | `RtProps.v` | C E F N |
| C81 | `C81_normal_continuity` | `RtProps.v` | C E F N |
| C82 | `C82_local_space` | `RtProps.v` | C E F N |
| C83 | `C83_conservation` | `RtProps.v` | C E F N |
| C84 | `C84_tetrahedron_reproduces` | `TetProps.v` | E F |
| C85 | `C85_tetrahedron_cell_nodes` | `TetLocalProps.v` | E F |
| C85 | `C85_tetrahedron_cell_positions` | `TetLocalProps.v` | E F |
| C86 | `C86_tetrahedron_cell_nodal` | `TetLocalProps.v` | E F |
| C86 | `C86_tetrahedron_cell_reproduces` | `TetLocalProps.v` | E F |
| C87 | `C87_tetrahedra_continuous` | `TetLocalProps.v` | E F |
| C88 | `C88_tetrahedron_cell_derivatives` | `TetLocalProps.v` | E F |
| C89 | `C89_tetrahedron_face_values` | `TetLocalProps.v` | E F |
| C90 | `C90_tetrahedron_cell_quadrature` | `TetLocalProps.v` | C E F |
| C91 | `C91_operator` | `DriverProps2.v` | C E F |
| C92 | `C92_source` | `DriverProps2.v` | C E F |
| C93 | `C93_pairs` | `DriverProps2.v` | C E F |
| C93 | `C93_symmetric` | `DriverProps2.v` | C E F |
| C93 | `C93_energy` | `DriverProps2.v` | C E F |
| C94 | `C94_weak_term` | `DriverProps2.v` | E F |
| C94 | `C94_edge_points` | `DriverProps2.v` | E F |
| C95 | `C95_vertices` | `DriverProps2.v` | F |
| C96 | `C96_evaluation` | `Driver2Props.v` | F |
| C96 | `C96_errors` | `Driver2Props.v` | E F N |
| C97 | `C97_source` | `Driver2Props.v` | C E F |
| C97 | `C97_source_gradients` | `Driver2Props.v` | C E F |
| C98 | `C98_operator` | `Driver2Props.v` | C E F |
| C99 | `C99_diffusion` | `Driver2Props.v` | C E F |
| C100 | `C100_convection` | `Driver2Props.v` | C E F |
| C100 | `C100_newton` | `Driver2Props.v` | C E F |
| C101 | `C101_zfem` | `Pcc2dProps.v` | E F |
| C102 | `C102_interpolation` | `Pcc2dProps.v` | C E F N |
| C103 | `C103_patch` | `Pcc2dProps.v` | C E F N |
| C104 | `C104_one_solution` | `Pcc2dProps.v` | C E F N |
| C105 | `C105_exact` | `Pcc2dProps.v` | C E F N |
| C106 | `C106_fem_interpolation` | `Fem2dProps.v` | E F N |
| C107 | `C107_fem_patch` | `Fem2dProps.v` | C E F |
| C108 | `C108_fem_one_solution` | `Fem2dProps.v` | C E F N |
| C109 | `C109_fem_exact` | `Fem2dProps.v` | C E F N |
| C110 | `C110_created` | `VemMccProps.v` | E F N |
| C110 | `C110_space_exists` | `VemMccProps.v` | E F N |
| C110 | `C110_vectors` | `VemMccProps.v` | C E F N |
| C111 | `C111_projection` | `VemMccProps.v` | C E F N |
| C111 | `C111_reproduces` | `VemMccProps.v` | C E F N |
| C112 | `C112_divergence` | `VemMccProps.v` | C E F N |
| C112 | `C112_conservation` | `VemMccProps.v` | C E F N |
| C112 | `C112_neighbours` | `VemMccProps.v` | E F N |
| C113 | `C113_stabilisation` | `VemMccProps.v` | C E F N |
| C114 | `C114_alone` | `VemMccProps.v` | E F N |
| C114 | `C114_pair` | `VemMccProps.v` | E F N |
| C115 | `C115_onto` | `VemMccProps.v` | C E F N |
| C115 | `C115_mass` | `VemMccProps.v` | C E F N |
| C115 | `C115_mixed` | `VemMccProps.v` | C E F N |
| C116 | `C116_assembled` | `Mcc2dProps.v` | C E F |
| C116 | `C116_forms` | `Mcc2dProps.v` | C E F N |
| C117 | `C117_patch` | `Mcc2dProps.v` | C E F N |
| C118 | `C118_solvable` | `Mcc2dProps.v` | C E F N |
| C119 | `C119_exact` | `Mcc2dProps.v` | C E F N |
| C120 | `C120_cells` | `Mcc2dProps.v` | C E F N |
| C120 | `C120_neighbours` | `Mcc2dProps.v` | C E F N |
| C120 | `C120_total` | `Mcc2dProps.v` | C E F N |
| C120 | `C120_divergence` | `Mcc2dProps.v` | C E F N |
| C121 | `C121_errors` | `Mcc2dProps.v` | E F N |
| C122 | `C122_matrices` | `ParabolicProps.v` | C E F |
| C123 | `C123_data` | `ParabolicProps.v` | C E F |
| C124 | `C124_run` | `ParabolicProps.v` | C E F N |
| C125 | `C125_implicit` | `ParabolicProps.v` | C E F N |
| C125 | `C125_mass_kernel` | `ParabolicProps.v` | C E F N |
| C125 | `C125_explicit` | `ParabolicProps.v` | C E F N |
| C126 | `C126_exact` | `ParabolicProps.v` | C E F N |
| C126 | `C126_in_time` | `ParabolicProps.v` | C E F N |
| C127 | `C127_decay` | `ParabolicProps.v` | C E F N |
| C128 | `C128_times` | `ParabolicProps.v` | C E F N |
| C129 | `C129_space_exists` | `DfProps.v` | C E F N |
| C129 | `C129_sizes` | `DfProps.v` | C E F N |
| C129 | `C129_pressure` | `DfProps.v` | C E F N |
| C130 | `C130_traces` | `DfProps.v` | E F N |
| C130 | `C130_divergence` | `DfProps.v` | C E F N |
| C130 | `C130_divergence_values` | `DfProps.v` | C E F N |
| C131 | `C131_projection` | `DfProps.v` | C E F N |
| C131 | `C131_lower` | `DfProps.v` | C E F N |
| C132 | `C132_gradient` | `DfProps.v` | C E F N |
| C132 | `C132_derivatives` | `DfProps.v` | C E F N |
| C133 | `C133_reproduction` | `DfProps.v` | C E F N |
| C133 | `C133_lower` | `DfProps.v` | C E F N |
| C134 | `C134_trace` | `DfProps.v` | C E F N |
| C134 | `C134_divergence_free` | `DfProps.v` | C E F N |
| C134 | `C134_onto` | `DfProps.v` | C E F N |
| C135 | `C135_stabilization` | `DfProps.v` | C E F N |
| C136 | `C136_values` | `DfProps.v` | C E F N |
| C137 | `C137_assembled` | `Elliptic1dProps.v` | C E F N |
| C137 | `C137_reference` | `Elliptic1dProps.v` | E F |
| C138 | `C138_patch` | `Elliptic1dProps.v` | C E F N |
| C139 | `C139_solvable` | `Elliptic1dProps.v` | C E F N |
| C140 | `C140_errors` | `Elliptic1dProps.v` | C E F N |
| C140 | `C140_exact` | `Elliptic1dProps.v` | C E F N |
| C140 | `C140_exact_refuted` | `Elliptic1dProps.v` | C E F N |
| C141 | `C141_vertices` | `Elliptic1dProps.v` | C E F N |
| C142 | `C142_cell` | `ElasticProps.v` | E F |
| C142 | `C142_lame_refuted` | `ElasticProps.v` | E F |
| C143 | `C143_symmetric` | `ElasticProps.v` | E F |
| C143 | `C143_nonnegative` | `ElasticProps.v` | E F |
| C143 | `C143_zero_energy` | `ElasticProps.v` | E F |
| C143 | `C143_rigid` | `ElasticProps.v` | E F |
| C143 | `C143_vem` | `ElasticProps.v` | C E F N |
| C143 | `C143_vem_kernel` | `ElasticProps.v` | C E F N |
| C144 | `C144_errors` | `ElasticProps.v` | E F |
| C144 | `C144_vem_exact` | `ElasticProps.v` | C E F N |
| C145 | `C145_assembled` | `ElasticGlobalProps.v` | C E F |
| C146 | `C146_definite` | `ElasticGlobalProps.v` | C E F N |
| C147 | `C147_strong_values` | `ElasticBoundaryProps.v` | C F |
| C148 | `C148_weak_term` | `ElasticBoundaryProps.v` | E F |
| C149 | `C149_assembled` | `ElasticBoundaryProps.v` | C E F |
| C149 | `C149_solution` | `ElasticBoundaryProps.v` | C E F N |
| C150 | `C150_patch` | `ElasticPatchProps.v` | C E F N |
