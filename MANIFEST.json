{
 "claims": [
  {
   "property": "C01",
   "status": "proved",
   "theorems": [
    "C01_tensor_layout",
    "C01_accepted",
    "C01_count"
   ],
   "note": ""
  },
  {
   "property": "C02",
   "status": "proved",
   "theorems": [
    "C02_gauss_legendre"
   ],
   "note": ""
  },
  {
   "property": "C03",
   "status": "proved",
   "theorems": [
    "C03_gauss_lobatto",
    "C03_end_points"
   ],
   "note": ""
  },
  {
   "property": "C04",
   "status": "proved",
   "theorems": [
    "C04_multipliers_area",
    "C04_affine_convex",
    "C04_affine_area_refuted"
   ],
   "note": "The failing affine case is C04_affine_area_refuted; C04_affine_convex says exactly when it holds."
  },
  {
   "property": "C05",
   "status": "proved",
   "theorems": [
    "C05_gauss_legendre",
    "C05_gauss_jacobi"
   ],
   "note": "scipy/numpy root finders are oracles with their documented contracts (exact roots); arithmetic over the reals."
  },
  {
   "property": "C06",
   "status": "proved",
   "theorems": [
    "C06_shape",
    "C06_layout",
    "C06_float_order"
   ],
   "note": ""
  },
  {
   "property": "C07",
   "status": "proved",
   "theorems": [
    "C07_derivatives"
   ],
   "note": ""
  },
  {
   "property": "C08",
   "status": "proved",
   "theorems": [
    "C08_vanish_on_boundary",
    "C08_jacobi_plain_refuted"
   ],
   "note": "Proved for the four boundary-vanishing names; the exception for jacobi_plain is C08_jacobi_plain_refuted."
  },
  {
   "property": "C09",
   "status": "proved",
   "theorems": [
    "C09_tables",
    "C09_interchangeable"
   ],
   "note": ""
  },
  {
   "property": "C10",
   "status": "proved",
   "theorems": [
    "C10_independent"
   ],
   "note": ""
  },
  {
   "property": "C11",
   "status": "proved",
   "theorems": [
    "C11_bilinear_map"
   ],
   "note": ""
  },
  {
   "property": "C12",
   "status": "proved",
   "theorems": [
    "C12_affine_map",
    "C12_affine_agrees"
   ],
   "note": ""
  },
  {
   "property": "C13",
   "status": "proved",
   "theorems": [
    "C13_jacobian",
    "C13_positive"
   ],
   "note": ""
  },
  {
   "property": "C14",
   "status": "proved",
   "theorems": [
    "C14_unique",
    "C14_chain_rule"
   ],
   "note": ""
  },
  {
   "property": "C15",
   "status": "proved",
   "theorems": [
    "C15_affine_second",
    "C15_affine_degenerate",
    "C15_bilinear_unchanged",
    "C15_bilinear_second_refuted"
   ],
   "note": "Affine part proved; the bilinear part is false of the code: C15_bilinear_second_refuted."
  },
  {
   "property": "C16",
   "status": "proved",
   "theorems": [
    "C16_cell_tables"
   ],
   "note": ""
  },
  {
   "property": "C17",
   "status": "proved",
   "theorems": [
    "C17_succeeds",
    "C17_tiling",
    "C17_conforming",
    "C17_reversed_limits"
   ],
   "note": ""
  },
  {
   "property": "C18",
   "status": "proved",
   "theorems": [
    "C18_float_count",
    "C18_sides",
    "C18_stratified",
    "C18_returned",
    "C18_too_few"
   ],
   "note": "int(num/4) is modelled exactly as integer division truncated toward zero; FloatFacts covers the rounding."
  },
  {
   "property": "C19",
   "status": "proved",
   "theorems": [
    "C19_uniform",
    "C19_ends",
    "C19_errors"
   ],
   "note": ""
  },
  {
   "property": "C20",
   "status": "proved",
   "theorems": [
    "C20_lhs_edge",
    "C20_on_edge",
    "C20_lhs_refuted"
   ],
   "note": "Holds for axis-parallel edges (C20_on_edge, which also says exactly when a sample is on the edge); false in general: C20_lhs_refuted."
  },
  {
   "property": "C21",
   "status": "proved",
   "theorems": [
    "C21_permutation",
    "C21_convex",
    "C21_independent",
    "C21_read",
    "C21_nonconvex_refuted"
   ],
   "note": "The change of non-convex cells is C21_nonconvex_refuted. arctan2 and argsort are parameters with their documented contracts; numpy_R_ok exhibits an instance."
  },
  {
   "property": "C22",
   "status": "proved",
   "theorems": [
    "C22_points",
    "C22_connectivity_refuted"
   ],
   "note": "False of the code: C22_connectivity_refuted, for every internal mesh. The point list itself is right: C22_points."
  },
  {
   "property": "C23",
   "status": "proved",
   "theorems": [
    "C23_grid",
    "C23_distinct",
    "C23_too_early"
   ],
   "note": ""
  },
  {
   "property": "C24",
   "status": "proved",
   "theorems": [
    "C24_mismatch",
    "C24_content",
    "C24_lines"
   ],
   "note": "The formatting of numbers is a parameter."
  },
  {
   "property": "C25",
   "status": "proved",
   "theorems": [
    "C25_validation",
    "C25_errors"
   ],
   "note": ""
  },
  {
   "property": "C26",
   "status": "proved",
   "theorems": [
    "C26_range",
    "C26_isolation"
   ],
   "note": ""
  },
  {
   "property": "C27",
   "status": "proved",
   "theorems": [
    "C27_forcing",
    "C27_forcing_vector",
    "C27_linear"
   ],
   "note": ""
  },
  {
   "property": "C28",
   "status": "proved",
   "theorems": [
    "C28_rows",
    "C28_complete",
    "C28_missing_function",
    "C28_vector",
    "C28_vector_complete"
   ],
   "note": ""
  },
  {
   "property": "C29",
   "status": "proved",
   "theorems": [
    "C29_float_count",
    "C29_sensor",
    "C29_count_refuted",
    "C29_defined",
    "C29_external",
    "C29_handler"
   ],
   "note": "The claimed count is false of the code (C29_count_refuted, for every n >= 1); the remaining parts are proved. The random generators are parameters with their documented contracts."
  },
  {
   "property": "C30",
   "status": "proved",
   "theorems": [
    "C30_handler",
    "C30_dtype",
    "C30_pairing",
    "C30_dirichlet",
    "C30_params",
    "C30_wrong_cells"
   ],
   "note": "The network is a parameter assumed to act row by row (pointwise); C36 shows when this holds."
  },
  {
   "property": "C31",
   "status": "proved",
   "theorems": [
    "C31_poisson",
    "C31_poisson_inverse",
    "C31_cd2d",
    "C31_cd2d_inverse",
    "C31_cd2d_inverse_domain",
    "C31_helmholtz",
    "C31_missing"
   ],
   "note": ""
  },
  {
   "property": "C32",
   "status": "proved",
   "theorems": [
    "C32_zero_coefficients",
    "C32_inverse_poisson",
    "C32_inverse_cd2d",
    "C32_domain",
    "C32_helmholtz"
   ],
   "note": ""
  },
  {
   "property": "C33",
   "status": "proved",
   "theorems": [
    "C33_poisson",
    "C33_convection_diffusion",
    "C33_helmholtz",
    "C33_poisson_inverse",
    "C33_diffusion_field",
    "C33_internal_mesh",
    "C33_jacobi_plain_refuted",
    "C33_short_rule_refuted"
   ],
   "note": "Proved for total degree on parallelograms and degree per variable on rectangles, including the two inverse-problem losses. The two conditions are needed: C33_jacobi_plain_refuted, C33_short_rule_refuted."
  },
  {
   "property": "C34",
   "status": "proved",
   "theorems": [
    "C34_forward",
    "C34_inverse",
    "C34_domain",
    "C34_cd2d_inverse_refuted",
    "C34_mismatch",
    "C34_mismatch_type"
   ],
   "note": "The matching pairings are accepted; the remaining shipped loss (cd2d_inverse) can be called by no model: C34_cd2d_inverse_refuted. All mismatched pairings fail: C34_mismatch."
  },
  {
   "property": "C35",
   "status": "proved",
   "theorems": [
    "C35_standard",
    "C35_hard",
    "C35_inverse",
    "C35_domain",
    "C35_nonneg",
    "C35_zero"
   ],
   "note": ""
  },
  {
   "property": "C36",
   "status": "proved",
   "theorems": [
    "C36_rows",
    "C36_pointwise",
    "C36_pointwise_domain",
    "C36_attention_refuted"
   ],
   "note": "Holds without attention for every model; with attention C36_attention_refuted gives a counterexample."
  },
  {
   "property": "C37",
   "status": "proved",
   "theorems": [
    "C37_boundary",
    "C37_default",
    "C37_gradient"
   ],
   "note": "The constraint function is an arbitrary function of point and network value."
  },
  {
   "property": "C38",
   "status": "proved",
   "theorems": [
    "C38_schedule",
    "C38_constant",
    "C38_keys",
    "C38_staircase_ignored"
   ],
   "note": "Keras ExponentialDecay(staircase=True) is modelled from its documentation; real arithmetic."
  },
  {
   "property": "C39",
   "status": "proved",
   "theorems": [
    "C39_layers",
    "C39_weights",
    "C39_forward",
    "C39_chain",
    "C39_errors"
   ],
   "note": "Keras Dense is modelled from its documentation."
  },
  {
   "property": "C40",
   "status": "proved",
   "theorems": [
    "C40_values",
    "C40_distance",
    "C40_order",
    "C40_relative",
    "C40_scaling",
    "C40_combined",
    "C40_shapes"
   ],
   "note": ""
  },
  {
   "property": "C41",
   "status": "proved",
   "theorems": [
    "C41_device",
    "C41_distinct",
    "C41_no_gpu",
    "C41_suggestions"
   ],
   "note": "The whole objective is modelled; weights after each step are arbitrary (any history), the optimizer is not computed."
  },
  {
   "property": "C42",
   "status": "proved",
   "theorems": [
    "C42_plot_defined",
    "C42_plot_count",
    "C42_space_counts",
    "C42_count_refuted"
   ],
   "note": "The count is false of the code: C42_count_refuted; C42_plot_count gives the value actually reported."
  },
  {
   "property": "C43",
   "status": "proved",
   "theorems": [
    "C43_aliasing_refuted"
   ],
   "note": "False of the code: C43_aliasing_refuted. The positive statement for functions that do not write to their arguments is C26_isolation."
  },
  {
   "property": "C44",
   "status": "proved",
   "theorems": [
    "C44_roundtrip",
    "C44_arguments",
    "C44_hard",
    "C44_hard_refuted"
   ],
   "note": "Proved for the plain model; false for the hard model (C44_hard_refuted). The base class configuration is taken to be empty."
  },
  {
   "property": "C45",
   "status": "proved",
   "theorems": [
    "C45_row_count_refuted"
   ],
   "note": "False of the code: C45_row_count_refuted."
  },
  {
   "property": "C46",
   "status": "proved",
   "theorems": [
    "C46_edges_first",
    "C46_quads_first_refuted"
   ],
   "note": "Proved when the edge section comes first; false otherwise: C46_quads_first_refuted."
  },
  {
   "property": "C47",
   "status": "proved",
   "theorems": [
    "C47_planar_refuted",
    "C47_refinement_ignored"
   ],
   "note": "Both claims are false of the code: C47_planar_refuted (edge count not a multiple of three) and C47_refinement_ignored."
  },
  {
   "property": "C48",
   "status": "proved",
   "theorems": [
    "C48_internal",
    "C48_external",
    "C48_wrong_method",
    "C48_optimized_refuted",
    "C48_constructor"
   ],
   "note": "False with is_optimized=True: C48_optimized_refuted; the other parts are proved."
  },
  {
   "property": "C49",
   "status": "proved",
   "theorems": [
    "C49_attention",
    "C49_domain_refuted"
   ],
   "note": "True for three models, false for the inverse domain model (C49_domain_refuted)."
  },
  {
   "property": "C50",
   "status": "proved",
   "theorems": [
    "C50_refused",
    "C50_single_refuted",
    "C50_zero_solution",
    "C50_empty"
   ],
   "note": "Refusal proved except for arrays with one entry, where it is false (C50_single_refuted)."
  },
  {
   "property": "C51",
   "status": "proved",
   "theorems": [
    "C51_bounded",
    "C51_default_refuted",
    "C51_sequential",
    "C51_shared_refuted",
    "C51_no_gpu"
   ],
   "note": "Bound proved for n_jobs >= 1, false for the default (C51_default_refuted); exclusive devices false with two or more workers (C51_shared_refuted), true with one. optuna is modelled from its documentation."
  },
  {
   "property": "C52",
   "status": "proved",
   "theorems": [
    "C52_poisson",
    "C52_helmholtz",
    "C52_convection_diffusion",
    "C52_inverse",
    "C52_field",
    "C52_boundary_internal",
    "C52_boundary_external",
    "C52_gear_refuted",
    "C52_circle_inverse_refuted"
   ],
   "note": ""
  },
  {
   "property": "C53",
   "status": "proved",
   "theorems": [
    "C53_boundary",
    "C53_interior"
   ],
   "note": ""
  },
  {
   "property": "C54",
   "status": "proved",
   "theorems": [
    "C54_standard",
    "C54_hard",
    "C54_inverse",
    "C54_inverse_domain"
   ],
   "note": "The network enters through its values and the gradient the tape returns (pointwise); the tape's gradient need not be the true gradient for this statement."
  },
  {
   "property": "C55",
   "status": "proved",
   "theorems": [
    "C55_local",
    "C55_order",
    "C55_parts"
   ],
   "note": "Standard and hard models with the three forward losses."
  },
  {
   "property": "C56",
   "status": "proved",
   "theorems": [
    "C56_similarity"
   ],
   "note": "Cells strictly convex, so that every Jacobian at a quadrature point is nonzero."
  },
  {
   "property": "C57",
   "status": "proved",
   "theorems": [
    "C57_numbering",
    "C57_affine_refuted"
   ],
   "note": "For the affine map on cells that are no parallelograms the claim fails: C57_affine_refuted."
  },
  {
   "property": "C58",
   "status": "proved",
   "theorems": [
    "C58_error",
    "C58_convergence",
    "C58_sharp"
   ],
   "note": "Uses Weierstrass' theorem in two variables, proved here by Bernstein polynomials. numpy's and scipy's root finders are an oracle assumed to satisfy its contract."
  },
  {
   "property": "C59",
   "status": "proved",
   "theorems": [
    "C59_residual",
    "C59_loss"
   ],
   "note": "exact_res is the iterated integral over the reference square of the pulled-back weak form. The bound is for each order; through make_space the order is at most 9999, so no limit is stated there (the limit is C58_convergence). Example with u = exp x."
  },
  {
   "property": "C60",
   "status": "proved",
   "theorems": [
    "C60_exact",
    "C60_solutions"
   ],
   "note": "Complements C33, which treats polynomial solutions on which the quadrature is exact. Differentiability is required in a neighbourhood of each point of the cell."
  },
  {
   "property": "C61",
   "status": "proved",
   "theorems": [
    "C61_span",
    "C61_converse"
   ],
   "note": "Stated for the loss with exact integrals; C59 bounds its distance to the loss of a training step."
  },
  {
   "property": "C62",
   "status": "proved",
   "theorems": [
    "C62_values",
    "C62_square",
    "C62_rectangular_refuted"
   ],
   "note": "C62_values and C62_square hold; C62_rectangular_refuted shows that reshape((n_test_points_x, n_test_points_y)) scrambles the grid when the two numbers differ."
  },
  {
   "property": "C63",
   "status": "proved",
   "theorems": [
    "C63_report",
    "C63_runs",
    "C63_networks"
   ],
   "note": ""
  },
  {
   "property": "C64",
   "status": "proved",
   "theorems": [
    "C64_rows",
    "C64_errors",
    "C64_forward",
    "C64_inverse_refuted",
    "C64_domain_refuted",
    "C64_means",
    "C64_quartiles"
   ],
   "note": "C64_rows, C64_errors, C64_forward hold; C64_inverse_refuted and C64_domain_refuted give the total time shown by the inverse scripts."
  },
  {
   "property": "C65",
   "status": "proved",
   "theorems": [
    "C65_files",
    "C65_names",
    "C65_runs"
   ],
   "note": ""
  },
  {
   "property": "C66",
   "status": "proved",
   "theorems": [
    "C66_used",
    "C66_ignored_refuted"
   ],
   "note": "C66_used holds for the scripts that pass model_architecture; C66_ignored_refuted for the others."
  },
  {
   "property": "C67",
   "status": "proved",
   "theorems": [
    "C67_standard",
    "C67_hard",
    "C67_inverse",
    "C67_domain",
    "C67_order",
    "C67_nearest",
    "C67_precision",
    "C67_nonneg"
   ],
   "note": "Exponents are unbounded (no overflow, underflow or nan). The values and gradients of the network and the points are taken as they are. C67_order covers other orders of summation for one sum; the training step itself sums in list order."
  },
  {
   "property": "C68",
   "status": "proved",
   "theorems": [
    "C68_standard",
    "C68_hard",
    "C68_inverse",
    "C68_domain",
    "C68_field",
    "C68_convex_standard",
    "C68_convex_hard",
    "C68_convex_inverse",
    "C68_convex_domain",
    "C68_convex_field",
    "C68_solutions"
   ],
   "note": ""
  },
  {
   "property": "C69",
   "status": "proved",
   "theorems": [
    "C69_parabola",
    "C69_minimiser",
    "C69_recovered",
    "C69_field"
   ],
   "note": ""
  },
  {
   "property": "C70",
   "status": "proved",
   "theorems": [
    "C70_standard",
    "C70_hard",
    "C70_inverse",
    "C70_domain",
    "C70_stationary"
   ],
   "note": "The exact derivative that automatic differentiation is meant to return; GradientTape itself is not modelled."
  },
  {
   "property": "C71",
   "status": "proved",
   "theorems": [
    "C71_report",
    "C71_runs",
    "C71_external_refuted"
   ],
   "note": "C71_external_refuted: with mesh_generation_method external the sensor data are requested with file_name=None, which pandas refuses."
  },
  {
   "property": "C72",
   "status": "proved",
   "theorems": [
    "C72_report",
    "C72_sensors_usa",
    "C72_sensors_circle",
    "C72_rows",
    "C72_runs",
    "C72_field",
    "C72_networks"
   ],
   "note": "C72_rows shows that a table in another row order than the test points silently gives wrong errors; C72_example runs such a case."
  },
  {
   "property": "C73",
   "status": "proved",
   "theorems": [
    "C73_internal",
    "C73_external",
    "C73_file",
    "C73_const",
    "C73_domain"
   ],
   "note": "exact arithmetic; networks of the layer type answer pointwise by C63_networks/C72_networks; for the domain scripts the hypotheses on cells and sensors are those on the mesh and sensors the run itself used"
  },
  {
   "property": "C74",
   "status": "proved",
   "theorems": [
    "C74_differentiable",
    "C74_runs",
    "C74_variables",
    "C74_start"
   ],
   "note": "Over the reals; activations must be twice differentiable everywhere (relu is not covered), attention off. Automatic differentiation is modelled as the derivative of the total loss."
  },
  {
   "property": "C75",
   "status": "proved",
   "theorems": [
    "C75_descent",
    "C75_stationary",
    "C75_idle",
    "C75_solved"
   ],
   "note": "Over the reals. Keras' Adam is written from its documentation (beta_1 = 0.9, beta_2 = 0.999, epsilon = 1e-7). C75_stationary and C75_idle hold for every loss function."
  },
  {
   "property": "C76",
   "status": "proved",
   "theorems": [
    "C76_step",
    "C76_coefficient",
    "C76_constant",
    "C76_travel",
    "C76_settles"
   ],
   "note": "Over the reals; the run must not fail up to the steps considered, which C74 provides for the shipped losses."
  },
  {
   "property": "C77",
   "status": "proved",
   "theorems": [
    "C77_internal_runs",
    "C77_internal_learns",
    "C77_internal_solved",
    "C77_external_runs",
    "C77_external_learns",
    "C77_external_solved",
    "C77_domain_runs",
    "C77_domain_learns",
    "C77_domain_solved"
   ],
   "note": "The scripts for a coefficient on the whole domain are covered with a mesh file, as they are shipped; forward scripts with internal meshes and with mesh files."
  },
  {
   "property": "C78",
   "status": "proved",
   "theorems": [
    "C78_runs",
    "C78_learns",
    "C78_solved",
    "C78_moves",
    "C78_reach",
    "C78_schedule"
   ],
   "note": ""
  },
  {
   "property": "C79",
   "status": "proved",
   "theorems": [
    "C79_read"
   ],
   "note": "yaml.safe_load is outside the model: the theorem starts at the nested dictionary that it returns."
  },
  {
   "property": "C80",
   "status": "proved",
   "theorems": [
    "C80_report",
    "C80_rows",
    "C80_column",
    "C80_learns",
    "C80_solved",
    "C80_points_refuted"
   ],
   "note": "C80_points_refuted: the same rows in another order give another exact solution without any complaint."
  },
  {
   "property": "C81",
   "status": "proved",
   "theorems": [
    "C81_outputs",
    "C81_internal",
    "C81_external",
    "C81_gear",
    "C81_const",
    "C81_domain"
   ],
   "note": "The input files are transcribed as nested dictionaries in Config.v. The mesh files are not transcribed: the theorem asks for a mesh file in the plane with quadrilaterals and edges of the listed references, which all shipped ones are."
  },
  {
   "property": "C82",
   "status": "proved",
   "theorems": [
    "C82_value",
    "C82_best",
    "C82_params",
    "C82_runs",
    "C82_stale_refuted",
    "C82_zero_refuted",
    "C82_no_gpu",
    "C82_nothing"
   ],
   "note": "Optuna's study is modelled by its documentation (FAIL for nan, first least COMPLETE trial). Draws and initial networks are arbitrary, tanh networks of the suggested widths. Refuted parts: stale database entries, zero exact solution."
  },
  {
   "property": "C83",
   "status": "proved",
   "theorems": [
    "C83_network",
    "C83_study",
    "C83_odd",
    "C83_origin",
    "C83_coefficient"
   ],
   "note": ""
  },
  {
   "property": "C84",
   "status": "proved",
   "theorems": [
    "C84_steep",
    "C84_trained",
    "C84_between",
    "C84_script"
   ],
   "note": ""
  },
  {
   "property": "C85",
   "status": "proved",
   "theorems": [
    "C85_stability",
    "C85_barrier",
    "C85_barrier_helmholtz",
    "C85_script",
    "C85_poisson",
    "C85_helmholtz",
    "C85_network",
    "C85_tanh",
    "C85_unique",
    "C85_zero_loss",
    "C85_hard",
    "C85_hard_network",
    "C85_smooth"
   ],
   "note": "Comparison principle with an explicit barrier function. The strong residual rs is a hypothesis: the scripts print the weak one. C85_zero_loss connects the two in the limit of all test functions. Exact arithmetic."
  },
  {
   "property": "C86",
   "status": "proved",
   "theorems": [
    "C86_backprop",
    "C86_values",
    "C86_gradient",
    "C86_standard",
    "C86_inverse",
    "C86_domain",
    "C86_hard_network",
    "C86_hard",
    "C86_hard_backprop",
    "C86_precision",
    "C86_shipped",
    "C86_arith"
   ],
   "note": "Activation tanh (the one the scripts use), no attention layer, of the hard constraints the shipped ansatz, unbounded exponents, no fused multiply-add. The weights are taken as given. The rounding of the optimizer update is not bounded."
  },
  {
   "property": "C87",
   "status": "proved",
   "theorems": [
    "C87_script",
    "C87_poisson",
    "C87_hard"
   ],
   "note": "Combines C85 and C86. The residual and the steepness are those of the exact network with the given weights. Only the internal mesh; mesh, quadrature and tables are computed exactly and rounded once when they become tensors."
  },
  {
   "property": "C88",
   "status": "proved",
   "theorems": [
    "C88_circle",
    "C88_usa_sign_refuted",
    "C88_loss",
    "C88_kernel",
    "C88_usa_refuted"
   ],
   "note": "C88_usa_sign_refuted refutes positivity and C88_usa_refuted uniqueness of the coefficient of the USA script; the script minimises over fields of one network, which need not contain the other fields exactly."
  },
  {
   "property": "C89",
   "status": "proved",
   "theorems": [
    "C89_ieee",
    "C89_moments",
    "C89_step",
    "C89_travel",
    "C89_idle",
    "C89_frozen",
    "C89_stops"
   ],
   "note": "Exponents are unbounded (no underflow of the moments); the learning rates are given numbers, the rounding of the scheduler is not modelled except for the cast."
  },
  {
   "property": "C90",
   "status": "proved",
   "theorems": [
    "C90_cosine",
    "C90_table",
    "C90_bound",
    "C90_zeros",
    "C90_equation"
   ],
   "note": "Exact arithmetic; jacobi is the polynomial of scipy.special.jacobi as modelled in Jacobi.v."
  }
 ]
}