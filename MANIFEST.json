{
 "claims": [
  {
   "property": "C01",
   "status": "proved",
   "theorems": [
    "C01_free_dofs_numbered_once"
   ],
   "note": "all k<=3, all sizes"
  },
  {
   "property": "C02",
   "status": "proved",
   "theorems": [
    "C02_strong_dofs_numbered_once"
   ],
   "note": "all k<=3, all sizes"
  },
  {
   "property": "C03",
   "status": "proved",
   "theorems": [
    "C03_counters_add_up"
   ],
   "note": ""
  },
  {
   "property": "C04",
   "status": "proved",
   "theorems": [
    "C04_cells_get_requested_dofs"
   ],
   "note": ""
  },
  {
   "property": "C05",
   "status": "proved",
   "theorems": [
    "C05_closure_layout",
    "C05_one_row_per_cell"
   ],
   "note": ""
  },
  {
   "property": "C06",
   "status": "proved",
   "theorems": [
    "C06_conformity_of_neighbours"
   ],
   "note": ""
  },
  {
   "property": "C07",
   "status": "proved",
   "theorems": [
    "C07_global_counts"
   ],
   "note": ""
  },
  {
   "property": "C08",
   "status": "proved",
   "theorems": [
    "C08_indices_split_closure"
   ],
   "note": ""
  },
  {
   "property": "C09",
   "status": "proved",
   "theorems": [
    "C09_creation_succeeds_iff_well_formed"
   ],
   "note": "also shows the creation never reaches undefined behaviour"
  },
  {
   "property": "C10",
   "status": "proved",
   "theorems": [
    "C10_flags_describe_facets",
    "C10_flags_describe_closure_refuted"
   ],
   "note": "the first theorem is the exact characterisation, the second refutes the stronger reading with a witness"
  },
  {
   "property": "C11",
   "status": "proved",
   "theorems": [
    "C11_constant_dofs_info"
   ],
   "note": ""
  },
  {
   "property": "C12",
   "status": "proved",
   "theorems": [
    "C12_count_dofs_packs",
    "C12_count_dofs_empty"
   ],
   "note": ""
  },
  {
   "property": "C13",
   "status": "proved",
   "theorems": [
    "C13_local_count_dofs_packs"
   ],
   "note": ""
  },
  {
   "property": "C14",
   "status": "proved",
   "theorems": [
    "C14_restriction_to_cell"
   ],
   "note": ""
  },
  {
   "property": "C15",
   "status": "proved",
   "theorems": [
    "C15_assembly_sums_local_entries",
    "C15_assembly_sums_any_data"
   ],
   "note": ""
  },
  {
   "property": "C16",
   "status": "proved",
   "theorems": [
    "C16_assembled_operator_is_sum_of_local"
   ],
   "note": ""
  },
  {
   "property": "C17",
   "status": "proved",
   "theorems": [
    "C17_assembly_order_independent"
   ],
   "note": "exact arithmetic: rounding is not modelled"
  },
  {
   "property": "C18",
   "status": "proved",
   "theorems": [
    "C18_symmetry_preserved",
    "C18_positivity_preserved"
   ],
   "note": ""
  },
  {
   "property": "C19",
   "status": "proved",
   "theorems": [
    "C19_round_trip",
    "C19_duplicates_are_summed"
   ],
   "note": "Gedim/Eigen matrix creation modelled as duplicate-summing insertion"
  },
  {
   "property": "C20",
   "status": "proved",
   "theorems": [
    "C20_shifted_block"
   ],
   "note": ""
  },
  {
   "property": "C21",
   "status": "proved",
   "theorems": [
    "C21_diffusion_scalar",
    "C21_diffusion_tensor",
    "C21_reaction_matrix",
    "C21_advection_matrix",
    "C21_forcing_scalar",
    "C21_forcing_vectorial"
   ],
   "note": "Over the reals; the calls are also shown to end normally when shapes match."
  },
  {
   "property": "C22",
   "status": "proved",
   "theorems": [
    "C22_diffusion_spsd",
    "C22_reaction_spsd",
    "C22_tensor_spsd"
   ],
   "note": ""
  },
  {
   "property": "C23",
   "status": "proved",
   "theorems": [
    "C23_diffusion_kernel",
    "C23_tensor_kernel",
    "C23_advection_kernel"
   ],
   "note": ""
  },
  {
   "property": "C24",
   "status": "proved",
   "theorems": [
    "C24_newton_linearisation",
    "C24_convective_residual"
   ],
   "note": ""
  },
  {
   "property": "C25",
   "status": "proved",
   "theorems": [
    "C25_L2_report",
    "C25_H1_report",
    "C25_squares",
    "C25_triangle",
    "C25_zero",
    "C25_zero_only"
   ],
   "note": ""
  },
  {
   "property": "C26",
   "status": "proved",
   "theorems": [
    "C26_strong_values",
    "C26_cells"
   ],
   "note": "one unknown at most on the Strong vertices (the code throws or reads out of range otherwise); strong unknowns inside cells keep 0"
  },
  {
   "property": "C27",
   "status": "proved",
   "theorems": [
    "C27_monomials_enumerated_once"
   ],
   "note": ""
  },
  {
   "property": "C28",
   "status": "proved",
   "theorems": [
    "C28_index_inverts_enumeration"
   ],
   "note": "Index over the integers: machine overflow is not modelled"
  },
  {
   "property": "C29",
   "status": "proved",
   "theorems": [
    "C29_derivative_indices"
   ],
   "note": ""
  },
  {
   "property": "C30",
   "status": "proved",
   "theorems": [
    "C30_matrices_differentiate"
   ],
   "note": ""
  },
  {
   "property": "C31",
   "status": "proved",
   "theorems": [
    "C31_vander_evaluates"
   ],
   "note": ""
  },
  {
   "property": "C32",
   "status": "proved",
   "theorems": [
    "C32_vander_derivatives"
   ],
   "note": ""
  },
  {
   "property": "C33",
   "status": "proved",
   "theorems": [
    "C33_vander_laplacian"
   ],
   "note": "Negative finding included: wrong column in 1D, undefined with fewer than three monomials"
  },
  {
   "property": "C34",
   "status": "proved",
   "theorems": [
    "C34_decomposition_2D",
    "C34_vander_2D"
   ],
   "note": ""
  },
  {
   "property": "C35",
   "status": "proved",
   "theorems": [
    "C35_decomposition_3D",
    "C35_vander_3D"
   ],
   "note": ""
  },
  {
   "property": "C36",
   "status": "proved",
   "theorems": [
    "C36_lagrange_nodal"
   ],
   "note": ""
  },
  {
   "property": "C37",
   "status": "proved",
   "theorems": [
    "C37_lagrange_reproduces",
    "C37_partition_of_unity"
   ],
   "note": ""
  },
  {
   "property": "C38",
   "status": "proved",
   "theorems": [
    "C38_lagrange_derivatives"
   ],
   "note": ""
  },
  {
   "property": "C39",
   "status": "proved",
   "theorems": [
    "C39_inertia_2D",
    "C39_inertia_3D",
    "C39_mapped_points",
    "C39_sign_refuted"
   ],
   "note": "PolygonMass, PolygonDiameter (gedim) and the eigensolver (Eigen) are inputs; negative finding on signDetQ for thin elements"
  },
  {
   "property": "C40",
   "status": "proved",
   "theorems": [
    "C40_dof_positions",
    "C40_nodal_basis",
    "C40_order_zero"
   ],
   "note": "Gauss-Lobatto points (gedim) enter as a list of order+1 distinct points"
  },
  {
   "property": "C41",
   "status": "proved",
   "theorems": [
    "C41_triangle_lattice"
   ],
   "note": ""
  },
  {
   "property": "C42",
   "status": "proved",
   "theorems": [
    "C42_triangle_nodal",
    "C42_triangle_reproduces",
    "C42_triangle_unity"
   ],
   "note": ""
  },
  {
   "property": "C43",
   "status": "proved",
   "theorems": [
    "C43_triangle_derivatives",
    "C43_triangle_local_derivatives"
   ],
   "note": ""
  },
  {
   "property": "C44",
   "status": "proved",
   "theorems": [
    "C44_triangle_second_derivatives",
    "C44_triangle_second_derivatives_refuted"
   ],
   "note": "orders up to 3 proved, every higher order refuted"
  },
  {
   "property": "C45",
   "status": "proved",
   "theorems": [
    "C45_edge_order",
    "C45_edge_positions",
    "C45_local_nodal"
   ],
   "note": "number of basis functions assumed within unsigned int"
  },
  {
   "property": "C46",
   "status": "proved",
   "theorems": [
    "C46_laplacian",
    "C46_laplacian_high_order_throws",
    "C46_laplacian_refuted"
   ],
   "note": "the inverse map is assumed planar: BInv(0,2) = BInv(1,2) = 0"
  },
  {
   "property": "C47",
   "status": "proved",
   "theorems": [
    "C47_tetrahedron_nodes",
    "C47_tetrahedron_nodal",
    "C47_tetrahedron_sum_one",
    "C47_tetrahedron_order_0"
   ],
   "note": ""
  },
  {
   "property": "C48",
   "status": "proved",
   "theorems": [
    "C48_tetrahedron_derivatives",
    "C48_tetrahedron_derivatives_refuted_at_nodes"
   ],
   "note": "the original claim (true derivatives at every point) is false; the statement gives the exact set of points"
  },
  {
   "property": "C49",
   "status": "proved",
   "theorems": [
    "C49_internal_rule",
    "C49_internal_area",
    "C49_lobatto_perimeter",
    "C49_edges_perimeter"
   ],
   "note": "area equals both the sum of triangle areas and the shoelace sum of the vertices"
  },
  {
   "property": "C50",
   "status": "proved",
   "theorems": [
    "C50_lobatto_points",
    "C50_edges_points",
    "C50_shared_edge"
   ],
   "note": ""
  },
  {
   "property": "C51",
   "status": "proved",
   "theorems": [
    "C51_dofi_dofi",
    "C51_d_recipe",
    "C51_space_stabilization"
   ],
   "note": ""
  },
  {
   "property": "C52",
   "status": "proved",
   "theorems": [
    "C52_matrix_identities",
    "C52_moments"
   ],
   "note": ""
  },
  {
   "property": "C53",
   "status": "proved",
   "theorems": [
    "C53_laplacian_quadrature",
    "C53_laplacian_points_refuted"
   ],
   "note": "negative finding for the overload with points"
  },
  {
   "property": "C54",
   "status": "proved",
   "theorems": [
    "C54_trace_exact",
    "C54_trace_near",
    "C54_trace_throws",
    "C54_accepted_refuted"
   ],
   "note": "gedim's binomial coefficients are taken exact; negative finding: a polygon whose corner is its centroid is refused"
  },
  {
   "property": "C55",
   "status": "proved",
   "theorems": [
    "C55_divergence"
   ],
   "note": ""
  },
  {
   "property": "C56",
   "status": "proved",
   "theorems": [
    "C56_piola"
   ],
   "note": "edge-oriented normal, so no sign of the determinant appears"
  },
  {
   "property": "C57",
   "status": "proved",
   "theorems": [
    "C57_numbering",
    "C57_all_used",
    "C57_space_exists",
    "C57_nodes"
   ],
   "note": "numbers without overflow"
  },
  {
   "property": "C58",
   "status": "proved",
   "theorems": [
    "C58_weights",
    "C58_unisolvent"
   ],
   "note": "the Cholesky solver is assumed exact on symmetric positive definite matrices; unisolvence of the nodes is a hypothesis, proved when order+1 sides (or, from order 3 on, as many as the order) lie on different lines"
  },
  {
   "property": "C59",
   "status": "proved",
   "theorems": [
    "C59_local_size_is_closure_size",
    "C59_tables_of_unknowns",
    "C59_unknowns_created"
   ],
   "note": "order >= 1 and (order+1)^2 representable; the tables are filled or refused exactly when a marker or cell cannot be served"
  },
  {
   "property": "C60",
   "status": "proved",
   "theorems": [
    "C60_segment_local_space"
   ],
   "note": ""
  },
  {
   "property": "C61",
   "status": "proved",
   "theorems": [
    "C61_continuity_across_edge"
   ],
   "note": ""
  },
  {
   "property": "C62",
   "status": "proved",
   "theorems": [
    "C62_square_lattice",
    "C62_order_zero_throws"
   ],
   "note": ""
  },
  {
   "property": "C63",
   "status": "proved",
   "theorems": [
    "C63_square_nodal",
    "C63_square_reproduces",
    "C63_square_derivatives"
   ],
   "note": ""
  },
  {
   "property": "C64",
   "status": "proved",
   "theorems": [
    "C64_edge_order",
    "C64_edge_positions",
    "C64_vertices",
    "C64_local_nodal",
    "C64_local_derivatives",
    "C64_laplacian_unavailable"
   ],
   "note": "gedim's bilinear map, its inverse and its inverse Jacobian are inputs; number of basis functions assumed within unsigned int"
  },
  {
   "property": "C65",
   "status": "proved",
   "theorems": [
    "C65_continuity_quadrilaterals",
    "C65_continuity_triangle_quadrilateral"
   ],
   "note": "gedim's bilinear map and its inverse are inputs assumed inverse on the unit square"
  },
  {
   "property": "C66",
   "status": "proved",
   "theorems": [
    "C66_velocity_size_is_closure_size",
    "C66_pressure_size_is_closure_size",
    "C66_raviart_thomas_needs_triangles"
   ],
   "note": ""
  },
  {
   "property": "C67",
   "status": "proved",
   "theorems": [
    "C67_velocity_size_is_sum_of_closures"
   ],
   "note": ""
  },
  {
   "property": "C68",
   "status": "proved",
   "theorems": [
    "C68_divergence_lobatto",
    "C68_divergence_edges",
    "C68_vocabulary"
   ],
   "note": "reference rules are inputs with stated exactness; a triangulation is a list of counterclockwise triangles whose oriented sides are those of the polygon plus inner sides met once in each direction"
  },
  {
   "property": "C69",
   "status": "proved",
   "theorems": [
    "C69_space_exists",
    "C69_sizes",
    "C69_well_posed"
   ],
   "note": "Eigen's LU and Cholesky are inputs assumed exact on nonsingular and positive definite matrices; gauss_solver shows such solvers exist"
  },
  {
   "property": "C70",
   "status": "proved",
   "theorems": [
    "C70_dofs_matrix",
    "C70_reproduction"
   ],
   "note": ""
  },
  {
   "property": "C71",
   "status": "proved",
   "theorems": [
    "C71_energy_projection",
    "C71_mean_value"
   ],
   "note": ""
  },
  {
   "property": "C72",
   "status": "proved",
   "theorems": [
    "C72_derivative_projection"
   ],
   "note": ""
  },
  {
   "property": "C73",
   "status": "proved",
   "theorems": [
    "C73_values_at_points",
    "C73_values_at_quadrature"
   ],
   "note": ""
  },
  {
   "property": "C74",
   "status": "proved",
   "theorems": [
    "C74_interpolation",
    "C74_reproduced_L2",
    "C74_reproduced_H1"
   ],
   "note": ""
  },
  {
   "property": "C75",
   "status": "proved",
   "theorems": [
    "C75_reproduction"
   ],
   "note": "same hypotheses as C58"
  },
  {
   "property": "C76",
   "status": "proved",
   "theorems": [
    "C76_continuity"
   ],
   "note": ""
  },
  {
   "property": "C77",
   "status": "proved",
   "theorems": [
    "C77_nodal"
   ],
   "note": ""
  },
  {
   "property": "C78",
   "status": "proved",
   "theorems": [
    "C78_triangle_reproduces",
    "C78_triangle_gradient"
   ],
   "note": ""
  },
  {
   "property": "C79",
   "status": "proved",
   "theorems": [
    "C79_dual_basis"
   ],
   "note": ""
  },
  {
   "property": "C80",
   "status": "proved",
   "theorems": [
    "C80_reproduces"
   ],
   "note": ""
  },
  {
   "property": "C81",
   "status": "proved",
   "theorems": [
    "C81_normal_continuity"
   ],
   "note": ""
  },
  {
   "property": "C82",
   "status": "proved",
   "theorems": [
    "C82_local_space"
   ],
   "note": ""
  },
  {
   "property": "C83",
   "status": "proved",
   "theorems": [
    "C83_conservation"
   ],
   "note": ""
  },
  {
   "property": "C84",
   "status": "proved",
   "theorems": [
    "C84_tetrahedron_reproduces"
   ],
   "note": ""
  },
  {
   "property": "C85",
   "status": "proved",
   "theorems": [
    "C85_tetrahedron_cell_nodes",
    "C85_tetrahedron_cell_positions"
   ],
   "note": "the comparison of points of the geometry library is assumed to tell the nodes apart"
  },
  {
   "property": "C86",
   "status": "proved",
   "theorems": [
    "C86_tetrahedron_cell_nodal",
    "C86_tetrahedron_cell_reproduces"
   ],
   "note": ""
  },
  {
   "property": "C87",
   "status": "proved",
   "theorems": [
    "C87_tetrahedra_continuous"
   ],
   "note": ""
  },
  {
   "property": "C88",
   "status": "proved",
   "theorems": [
    "C88_tetrahedron_cell_derivatives"
   ],
   "note": ""
  },
  {
   "property": "C89",
   "status": "proved",
   "theorems": [
    "C89_tetrahedron_face_values"
   ],
   "note": ""
  },
  {
   "property": "C90",
   "status": "proved",
   "theorems": [
    "C90_tetrahedron_cell_quadrature"
   ],
   "note": ""
  },
  {
   "property": "C91",
   "status": "proved",
   "theorems": [
    "C91_operator"
   ],
   "note": ""
  },
  {
   "property": "C92",
   "status": "proved",
   "theorems": [
    "C92_source"
   ],
   "note": ""
  },
  {
   "property": "C93",
   "status": "proved",
   "theorems": [
    "C93_pairs",
    "C93_symmetric",
    "C93_energy"
   ],
   "note": ""
  },
  {
   "property": "C94",
   "status": "proved",
   "theorems": [
    "C94_weak_term",
    "C94_edge_points"
   ],
   "note": ""
  },
  {
   "property": "C95",
   "status": "proved",
   "theorems": [
    "C95_vertices"
   ],
   "note": ""
  },
  {
   "property": "C96",
   "status": "proved",
   "theorems": [
    "C96_evaluation",
    "C96_errors"
   ],
   "note": ""
  },
  {
   "property": "C97",
   "status": "proved",
   "theorems": [
    "C97_source",
    "C97_source_gradients"
   ],
   "note": ""
  },
  {
   "property": "C98",
   "status": "proved",
   "theorems": [
    "C98_operator"
   ],
   "note": ""
  },
  {
   "property": "C99",
   "status": "proved",
   "theorems": [
    "C99_diffusion"
   ],
   "note": ""
  },
  {
   "property": "C100",
   "status": "proved",
   "theorems": [
    "C100_convection",
    "C100_newton"
   ],
   "note": ""
  },
  {
   "property": "C101",
   "status": "proved",
   "theorems": [
    "C101_zfem"
   ],
   "note": "a negative finding"
  },
  {
   "property": "C102",
   "status": "proved",
   "theorems": [
    "C102_interpolation"
   ],
   "note": ""
  },
  {
   "property": "C103",
   "status": "proved",
   "theorems": [
    "C103_patch"
   ],
   "note": ""
  },
  {
   "property": "C104",
   "status": "proved",
   "theorems": [
    "C104_one_solution"
   ],
   "note": ""
  },
  {
   "property": "C105",
   "status": "proved",
   "theorems": [
    "C105_exact"
   ],
   "note": ""
  },
  {
   "property": "C106",
   "status": "proved",
   "theorems": [
    "C106_fem_interpolation"
   ],
   "note": ""
  },
  {
   "property": "C107",
   "status": "proved",
   "theorems": [
    "C107_fem_patch"
   ],
   "note": ""
  },
  {
   "property": "C108",
   "status": "proved",
   "theorems": [
    "C108_fem_one_solution"
   ],
   "note": ""
  },
  {
   "property": "C109",
   "status": "proved",
   "theorems": [
    "C109_fem_exact"
   ],
   "note": ""
  },
  {
   "property": "C110",
   "status": "proved",
   "theorems": [
    "C110_created",
    "C110_space_exists",
    "C110_vectors"
   ],
   "note": ""
  },
  {
   "property": "C111",
   "status": "proved",
   "theorems": [
    "C111_projection",
    "C111_reproduces"
   ],
   "note": ""
  },
  {
   "property": "C112",
   "status": "proved",
   "theorems": [
    "C112_divergence",
    "C112_conservation",
    "C112_neighbours"
   ],
   "note": ""
  },
  {
   "property": "C113",
   "status": "proved",
   "theorems": [
    "C113_stabilisation"
   ],
   "note": ""
  },
  {
   "property": "C114",
   "status": "proved",
   "theorems": [
    "C114_alone",
    "C114_pair"
   ],
   "note": "the first part is a negative finding"
  },
  {
   "property": "C115",
   "status": "proved",
   "theorems": [
    "C115_onto",
    "C115_mass",
    "C115_mixed"
   ],
   "note": ""
  },
  {
   "property": "C116",
   "status": "proved",
   "theorems": [
    "C116_assembled",
    "C116_forms"
   ],
   "note": "the generic statement and that the mixed virtual element meets its hypotheses"
  },
  {
   "property": "C117",
   "status": "proved",
   "theorems": [
    "C117_patch"
   ],
   "note": ""
  },
  {
   "property": "C118",
   "status": "proved",
   "theorems": [
    "C118_solvable"
   ],
   "note": ""
  },
  {
   "property": "C119",
   "status": "proved",
   "theorems": [
    "C119_exact"
   ],
   "note": ""
  },
  {
   "property": "C120",
   "status": "proved",
   "theorems": [
    "C120_cells",
    "C120_neighbours",
    "C120_total",
    "C120_divergence"
   ],
   "note": ""
  },
  {
   "property": "C121",
   "status": "proved",
   "theorems": [
    "C121_errors"
   ],
   "note": ""
  },
  {
   "property": "C122",
   "status": "proved",
   "theorems": [
    "C122_matrices"
   ],
   "note": ""
  },
  {
   "property": "C123",
   "status": "proved",
   "theorems": [
    "C123_data"
   ],
   "note": ""
  },
  {
   "property": "C124",
   "status": "proved",
   "theorems": [
    "C124_run"
   ],
   "note": "the sparse solver is any that solves nonsingular systems"
  },
  {
   "property": "C125",
   "status": "proved",
   "theorems": [
    "C125_implicit",
    "C125_mass_kernel",
    "C125_explicit"
   ],
   "note": "the second half is a negative finding"
  },
  {
   "property": "C126",
   "status": "proved",
   "theorems": [
    "C126_exact",
    "C126_in_time"
   ],
   "note": ""
  },
  {
   "property": "C127",
   "status": "proved",
   "theorems": [
    "C127_decay"
   ],
   "note": ""
  },
  {
   "property": "C128",
   "status": "proved",
   "theorems": [
    "C128_times"
   ],
   "note": "negative finding"
  },
  {
   "property": "C129",
   "status": "proved",
   "theorems": [
    "C129_space_exists",
    "C129_sizes",
    "C129_pressure"
   ],
   "note": "orders from 2"
  },
  {
   "property": "C130",
   "status": "proved",
   "theorems": [
    "C130_traces",
    "C130_divergence",
    "C130_divergence_values"
   ],
   "note": ""
  },
  {
   "property": "C131",
   "status": "proved",
   "theorems": [
    "C131_projection",
    "C131_lower"
   ],
   "note": ""
  },
  {
   "property": "C132",
   "status": "proved",
   "theorems": [
    "C132_gradient",
    "C132_derivatives"
   ],
   "note": ""
  },
  {
   "property": "C133",
   "status": "proved",
   "theorems": [
    "C133_reproduction",
    "C133_lower"
   ],
   "note": ""
  },
  {
   "property": "C134",
   "status": "proved",
   "theorems": [
    "C134_trace",
    "C134_divergence_free",
    "C134_onto"
   ],
   "note": ""
  },
  {
   "property": "C135",
   "status": "proved",
   "theorems": [
    "C135_stabilization"
   ],
   "note": ""
  },
  {
   "property": "C136",
   "status": "proved",
   "theorems": [
    "C136_values"
   ],
   "note": ""
  },
  {
   "property": "C137",
   "status": "proved",
   "theorems": [
    "C137_assembled",
    "C137_reference"
   ],
   "note": ""
  },
  {
   "property": "C138",
   "status": "proved",
   "theorems": [
    "C138_patch"
   ],
   "note": ""
  },
  {
   "property": "C139",
   "status": "proved",
   "theorems": [
    "C139_solvable"
   ],
   "note": ""
  },
  {
   "property": "C140",
   "status": "proved",
   "theorems": [
    "C140_errors",
    "C140_exact",
    "C140_exact_refuted"
   ],
   "note": "the last part is a negative finding"
  },
  {
   "property": "C141",
   "status": "proved",
   "theorems": [
    "C141_vertices"
   ],
   "note": ""
  },
  {
   "property": "C142",
   "status": "proved",
   "theorems": [
    "C142_cell",
    "C142_lame_refuted"
   ],
   "note": "the scatter into the system is C145; the second theorem is a negative finding"
  },
  {
   "property": "C143",
   "status": "proved",
   "theorems": [
    "C143_symmetric",
    "C143_nonnegative",
    "C143_zero_energy",
    "C143_rigid",
    "C143_vem",
    "C143_vem_kernel"
   ],
   "note": ""
  },
  {
   "property": "C144",
   "status": "proved",
   "theorems": [
    "C144_errors",
    "C144_vem_exact"
   ],
   "note": ""
  },
  {
   "property": "C145",
   "status": "proved",
   "theorems": [
    "C145_assembled"
   ],
   "note": "the boundary terms of the right-hand side are C148"
  },
  {
   "property": "C146",
   "status": "proved",
   "theorems": [
    "C146_definite"
   ],
   "note": ""
  },
  {
   "property": "C147",
   "status": "proved",
   "theorems": [
    "C147_strong_values"
   ],
   "note": ""
  },
  {
   "property": "C148",
   "status": "proved",
   "theorems": [
    "C148_weak_term"
   ],
   "note": "computed from zero; C149 adds it to the forces in the loop of the code"
  },
  {
   "property": "C149",
   "status": "proved",
   "theorems": [
    "C149_assembled",
    "C149_solution"
   ],
   "note": ""
  },
  {
   "property": "C150",
   "status": "proved",
   "theorems": [
    "C150_patch"
   ],
   "note": "the statement is about displacements in equilibrium without volume forces"
  }
 ]
}