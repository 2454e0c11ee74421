# Design of the formal model of fastvpinns

## 1. Approach

The model is a set of small total Gallina functions in `rocq/theories`, one per
function of the Python code; each definition cites the lines of `/repo` it
models.  Python exceptions are values (`result A := Ok a | Err exn`).  Arrays are
lists, 2D arrays lists of rows, Python dicts association lists in insertion
order.  Python integers are `Z` where the code validates them and `nat` where
they are sizes.  Where object identity matters (aliasing of the arrays handed out
by the getters), `Heap.v` models the same functions on an explicit store.

**Numbers.**  The model is polymorphic in a carrier with field operations and a
comparison (class `Num`).  It is *run* over rationals (`vm_compute`, in Examples)
and *proved about* over the reals of the standard library.  So every theorem
except those of `Properties_Float.v`, `Properties_Round.v`, `Properties_RoundNet.v`, `Properties_Computed.v` and `Properties_RoundOptim.v` is about exact
arithmetic: overflow, nan and inf are not modelled (division by zero is an explicit
`ZeroDivisionError`/`nan` outcome only where the text says so).  The three places
where binary64 rounding decides an integer — `int(n / 4)`, `int(0.9 * n)`,
`int(sqrt(k * k))` — are treated with Flocq in `FloatFacts.v`.  `Rounding.v` runs
the training step with every operation rounded, on data rounded by `tf.constant`
(unbounded exponents: no overflow or underflow; sums in list order, with a bound for
every other order; network values and gradients are taken as given), and
`Properties_Round.v` bounds the difference from the exact losses.  `RoundNet.v` rounds
every operation of the forward pass and of the gradient tape too, and
`Properties_RoundNet.v` bounds the error of the network and of the whole step.  `RoundOptim.v`
rounds every operation of the Adam update, for given gradients and rates
(`Properties_RoundOptim.v`); how far a rounded run drifts from the exact one is not bounded.

**External libraries** are parameters or records ("oracles").  Their documented
contract is a hypothesis of exactly the theorems that need it; each contract is
shown to be satisfiable by a concrete instance (`QuadExamples.v` and the Examples).

| library call | treatment |
|---|---|
| `numpy.polynomial.legendre.leggauss(n)` | oracle; contract: n nodes, n weights, exact on [-1,1] up to degree 2n-1 |
| `scipy.special.roots_jacobi(n,1,1)[0]` | oracle; contract: the n distinct zeros of P_n^(1,1), in (-1,1) |
| `scipy.special.jacobi`, `legendre`, `numpy.poly1d` | concrete: coefficient lists, explicit finite sum |
| `pyDOE.lhs` | oracle; contract: values in [0,1], right count (more only where stated) |
| `numpy.random.randint`, `numpy.random.choice` | oracle; contract: indices in range |
| `numpy.linalg.solve` (3x3) | concrete: Cramer's rule, `LinAlgError` iff the determinant is 0 |
| `numpy` `linspace, meshgrid, outer, unique, argsort, reshape, arctan2, mean` | concrete |
| `meshio.read` / `Mesh` / `write`, gmsh refinement | the data handed over; refinement and file content are oracles |
| `pandas.read_csv` | the first three columns |
| TensorFlow `reshape, stack, concat, transpose, matvec, reduce_mean/sum, gather, cast` | concrete on nested lists; shape errors are `InvalidArgumentError`; casts are identities |
| `GradientTape.gradient` | the mathematical derivative of the sum of the outputs |
| Keras `Dense`, `Attention`, `ExponentialDecay`, `Model` constructor | concrete functions written from the Keras documentation |
| optimizer | `Optim.v`: Adam over the reals with the Keras defaults, written from its documentation; the statements about training other than C74-C78 hold for arbitrary weight sequences |
| automatic differentiation | the derivative (`Derive`) of the loss in each variable, resp. of the outputs in each coordinate |
| optuna `suggest_*`, `study.optimize` | oracle; contract: a value of the requested range; threads interleave arbitrarily |
| matplotlib, rich | not modelled, except the indexing done to build plot arguments |

## 2. Trusted base

* The Coq 8.16.1 kernel (`vm_compute` is used in Examples and refutations; no
  `native_compute`).
* The axioms listed per theorem in section 6.  All come from the standard library:
  `ClassicalDedekindReals.sig_forall_dec`, `ClassicalDedekindReals.sig_not_dec`,
  `FunctionalExtensionality.functional_extensionality_dep` (the construction of the
  reals) and `Classical_Prop.classic` (through Coquelicot and case distinctions).
  We declare none.
* The specification files `Spec*.v`, which fix what the words of the properties
  mean (integral, derivative, area, tiling, weak residual, similarity, ...), written
  without the model's helpers.
* The reading of the Python text: nothing ties the model mechanically to `/repo`.
* The library semantics of the table above.

## 3. What is modelled

| `/repo` file | model | left out |
|---|---|---|
| `FE/quadratureformulas_quad2d.py` | `Quadrature.v`, all | the alpha, beta other than 0 of the inner Jacobi helper (never used) |
| `FE/basis_2d_QN_Legendre.py`, `_Legendre_Special.py`, `_Chebyshev_2.py`, `_Jacobi.py` | `Basis.v`, all eight methods of each | - |
| `FE/quad_affine.py`, `FE/quad_bilinear.py` | `Transform.v`, all | the print in the bilinear second derivative |
| `FE/fe2d_setup_main.py`, `FE/FE2D_Cell.py` | `Cell.v`, all | - |
| `FE/fespace2d.py` | `Space.v` (values), `Heap.v` (store) | drawing; the summary table, except its two numbers (C25) |
| `FE/fespace.py`, `basis_function_2d.py`, `fe_transformation_2d.py`, `quadratureformulas.py`, `geometry.py`, `datahandler.py` | abstract classes: signatures and attribute assignments only | the `_3d` files (abstract, no subclass) |
| `Geometry/geometry_2d.py` | `Geometry.v`: constructor, `read_mesh`, `generate_quad_mesh_internal`, `generate_vtk_for_test`, `get_test_points`, `write_vtk` | `plot_adaptive_mesh` (drawing) |
| `data/datahandler2d.py` | `Data.v`, all | - |
| `physics/*.py` (six losses) | `Physics.v`, all, with Python argument binding | - |
| `model/*.py` (four classes) | `Nets.v` (constructor, `call`, `get_config`, layers), `Init.v` (initial weights), `Train.v` (`train_step` up to the losses), `Optim.v` (gradients, Adam, runs of steps), `Tensor.v` | `tf.function` tracing, printing; the numbers drawn by the initializers are arbitrary |
| `utils/compute_utils.py` | `Metrics.v`, all | - |
| `utils/plot_utils.py`, `utils/print_utils.py` | `Driver.v`: shape test of plot_contour, rows of print_table | drawing, number formatting, console width |
| `hyperparameter_tuning/*.py` | `Tuner.v`, `Study.v` (study, training of a trial) | the training loop's wall time, logging, GPU memory settings; Optuna itself is modelled by its documentation (comment of `Study.v`) |
| `examples/**` problem files | `Problems.v`: exact solution, right-hand side, boundary functions, coefficients | |
| `examples/**` forward main scripts | `Driver.v`: setup, training loop, reports, .vtk files, tables, for an arbitrary sequence of weights; `Loop.v`: with the weights that the optimizer produces; `Config.v`: the settings out of what `yaml.safe_load` returns, the shipped input files | the YAML parser, values of a type that the settings cannot hold (refused when read), wall-clock times (arbitrary numbers), console and progress bar, pictures, making the output folder |
| `examples/**` inverse main scripts | `DriverInverse.v`: setup, training loop, reports, .vtk and text files; `Driver.v`: their time tables; `Problems.v`: mesh bounds | as for the forward scripts; `times` says whether the time table could be printed; weights and parameters are an arbitrary sequence here, those of the optimizer in `Loop.v` |

## 4. Files

| file | content |
|---|---|
| `Num.v`, `Py.v`, `Jacobi.v` | carrier class; results, dictionaries and numpy helpers; polynomials |
| `Quadrature.v` `Basis.v` `Transform.v` `Cell.v` `Space.v` `Heap.v` `Tensor.v` `Data.v` `Physics.v` `Train.v` `Geometry.v` `Nets.v` `Metrics.v` `Tuner.v` `Problems.v` `Driver.v` `DriverInverse.v` `Rounding.v` `Optim.v` `Loop.v` `Config.v` `Study.v` `Init.v` `RoundNet.v` | the model |
| `Spec.v` `SpecGeom.v` `SpecTrain.v` `SpecMesh.v` `SpecPde.v` `SpecProblem.v` `SpecWeak.v` `SpecDriver.v` `SpecDriverInverse.v` `SpecScript.v` `SpecRound.v` `SpecShape.v` `SpecOptim.v` `SpecLoop.v` `SpecConfig.v` `SpecStudy.v` `SpecInit.v` `SpecMax.v` `SpecRoundNet.v` | specifications |
| `*Facts*.v`, `RCalc.v`, `PolyDeg.v`, `Interp.v`, `GlobalQuad.v`, `ExactTrain.v` | proofs |
| `QuadExamples.v`, `ExactExamples.v` | concrete instances for Examples |
| `Properties_*.v` | the theorems named in `MANIFEST.json`, each closed by applying a lemma, followed by `Print Assumptions` and an Example meeting its hypotheses |

`/verif/seeded/LOG.jsonl` records the wrong programs tried against the theorems:
one line per edit of a model definition, with the theorems that stopped proving.

## 5. Plan per property

* **C01** model the flattening loops; index law by list lemmas; factorisation by induction.
* **C02** from the 1D contract by linearity in each monomial.
* **C03** Legendre differential equation and orthogonality from the explicit sum; interpolation on the Lobatto nodes; identification of the weights.
* **C04** the bilinear Jacobian is affine in each variable and positive for convex cells; sum by exactness of degree 1; compared with the shoelace formula.  Refuted for the affine map on general convex cells.
* **C05** change of variables per cell and additivity of the integral over the grid.
* **C06** list index lemmas on the nested loops; the number of functions in binary64.
* **C07** derivative identity of Jacobi polynomials from the explicit sum; `is_derive`.
* **C08** values of Jacobi polynomials at +-1; refuted for `jacobi_plain`.
* **C09** the two formulas are both the derivative of the same function.
* **C10** degree argument in one variable, tensorised.
* **C11, C12** algebra.
* **C13** `is_derive` of the map in each variable; positivity by convexity at the corners.
* **C14, C15** algebra plus the two-variable chain rule; refuted for the bilinear second derivative.
* **C16** composition of the previous with the cell model.
* **C17** explicit cells; cover by floor; disjointness by order.
* **C18** algebra on the sampler oracle; the count in binary64.
* **C19** fold over edges, sort/dedup specification.
* **C20** refuted with a witness; proved for axis-parallel edges.
* **C21** sort by `atan2`: permutation; anticlockwise for convex cells; refuted for non-convex.
* **C22** refuted by computation; what the mesh object does contain.
* **C23** index law of meshgrid/flatten.
* **C24, C45** file system as a map from names to contents; row count not checked (refuted).
* **C25** case analysis on the constructors.
* **C26, C27, C43** heap with addresses; invariant over arbitrary histories; aliasing of coordinates refutes C43.
* **C28** fold over the dictionary.
* **C29** count in binary64; refuted for the documented count; box and pairing proved.
* **C30** index law of reshape/stack/concat.
* **C31, C32** algebra on lists.
* **C33** integration by parts for polynomials on the reference square, exactness of the rule.
* **C34** Python keyword binding; refuted for one loss, proved for the others.
* **C35** algebra.
* **C36** network as a function applied row by row; derivative of the sum; attention refuted by a concrete batch.
* **C37** invariant over arbitrary weight histories.
* **C38, C39** direct.
* **C40, C50** inequalities on finite sums (Cauchy-Schwarz, Minkowski); sizes.
* **C41, C51** arithmetic and case analysis; shared devices refuted.
* **C42** refuted; IndexError condition proved.
* **C44** `get_config` then the constructor; refuted for the hard-constraint model.
* **C46, C47** fold over the mesh's cell blocks; refuted for quads listed first and for planar files.
* **C48** state machine of the geometry object.
* **C49** call order of the constructors; refuted for the domain model.
* **C52, C53** derivatives of the shipped formulas, pointwise on the domain; refuted for two problems.
* **C54** zero of a sum of squares; residuals rewritten as sums over points of the cell.
* **C55** the loss as a sum over cells, hence independent of their order and additive over parts.
* **C56** transformation of the map, the Jacobian and the gradients under a similarity.
* **C57** parity of the test functions, symmetry of the nodes and weights (uniqueness of the Gauss and Lobatto rules), the reference square turned by a quarter or reflected; refuted for the affine map on a kite.
* **C58** (quadrature error): C58_error, C58_convergence, C58_sharp in Properties_Error.v. Weierstrass.v proves the two-variable approximation theorem (Bernstein), SquareInt.v integrals over the square, Fubini, the error bound, convergence and sharpness.
* **C59** (error of residual and loss): C59_residual (through the getters), C59_loss (four models) in Properties_Error.v, from ErrorFacts.v: the integrand of the weak form is continuous, quad_error, Minkowski's inequality on the list of all residuals.
* **C60** (consistency): C60_exact, C60_solutions in Properties_Error.v, from ErrorFacts.exact_zero: the integrand is the sign of the Jacobian times the divergence, in reference coordinates, of the test function times the Piola-transformed flux; each part integrates to zero because the test function vanishes on the edges (Fubini for the second).
* **C61** (converse of C60): C61_span, C61_converse in Properties_Error.v, from Converse.v: leading coefficients give the span of the test functions; Weierstrass and positivity of the integral give that a continuous function orthogonal to all of them is zero; the integrand splits into two divergence terms and the defect of the equation (ErrorFacts.integrand_parts).
* **C62** (contour plots): index law of meshgrid, flatten and reshape; two entries that should agree differ.
* **C63** (training scripts): invariant of the loop over the epochs; the setup by C12, C19, C23, C30, C54.
* **C64** (tables): evaluation of the lists; refuted for the inverse scripts.
* **C65** (.vtk files): invariant of the loop with the file system; decimal numerals are injective; C24 for one file.
* **C66** (layers): evaluation of the constructor call of each script.
* **C67** (rounding): C67_* in Properties_Round.v. Rounding.v instantiates the training step with rounded operations; RoundFacts.v evaluates it for any operations and propagates the invariant |x| <= b, |x' - x| <= ((1+u)^k - 1) b through every operation.
* **C68** (convexity): C68_* in Properties_Shape.v. ShapeFacts.v gives each total loss in closed form and uses the parallelogram identity.
* **C69** (identification): C69_* in Properties_Shape.v.
* **C70** (gradient): C70_* in Properties_Shape.v; derivatives of finite sums, Coquelicot's is_derive.
* **C71** (constant inverse script): C71_* in Properties_DriverInverse.v; invariant of the training loop, then C63's plots and C29's sensors.
* **C72** (domain inverse scripts): C72_* in Properties_DriverInverse.v; same loop invariant with the file system as in C65.
* **C73** (losses of the scripts): C73_* in Properties_Script.v; build the model's tables cell by cell (cell_kernel), reindex the k*k test functions, and read boundary rows by tag.
* **C74** jets of the network in its variables, closure of differentiability under the loss (JetFacts, OptimFacts)
* **C75** sign of the first Adam direction against the gradient; derivative along it (AdamFacts)
* **C76** Cauchy-Schwarz between the two moments, bias correction by the arithmetic-geometric mean, geometric sums of the schedule (AdamFacts)
* **C77** training loop of Loop.v closes the weight sequences of Driver.v/DriverInverse.v; determinism of the set-up plus C74/C75 (LoopFacts)
* **C78** as C77 with the inverse parameters among the variables; travel bounds of C76 along the recorded history
* **C79** lookups along paths (ConfigFacts)
* **C80** general exact solution in run_external_with (DriverFacts), specialised to the csv file (ConfigFacts)
* **C81** settings of the shipped files discharged by computation, C73/C77 for the rest (ConfigFacts)
* **C82** (study) list of finished trials; fold for the first minimum; values from C41 with the optimizer of C75; dictionary lookups by prefix of the keys.
* **C83** The initial layers are written out (glorot_uniform and zeros by the Keras documentation, drawn numbers arbitrary in [0, 1]); oddness goes through the layers by induction.
* **C84** Steepness by induction over the layers; the weights stay near their initial values by C76 (travel); every point has a test point within half a spacing, where the error is at most the printed maximum.
* **C85** comparison principle; barrier for each equation; boundary gap from the loss
* **C86** (rounding inside the network): C86_* in Properties_RoundNet.v. RoundNet.v is the forward pass and the reverse-mode gradient over rounded operations. RoundNetFacts.v proves that the backward pass with exact operations is the derivative of `network_of`, and propagates |x| <= b, |x' - x| <= ((1+u)^k - 1) b through the layers both ways. RoundStep.v repeats the bounds of C67 for two different networks, the exact one and the rounded one. RoundHard.v does the same for the network times the ansatz, with the product rule on the tape.
* **C87** (predictions in the working precision): C87_* in Properties_Computed.v, proofs in ComputedFacts.v. The loss of the run is within the C86 bound of the rounded loss, and C85 is monotone in the loss.
* **C88** (fields of the inverse scripts): C88_* in Properties_Field.v, proofs in FieldFacts.v. The loss vanishes by C60 for any field that solves the equation with u; for the USA script h = exp(-9.9 y) satisfies div(h grad u) = 0, checked by differentiation. The ranges of the two meshes (disc, square) were read off the .mesh files and are hypotheses on (x, y), not a model of the files.
* **C89** (optimizer in the working precision): C89_* in Properties_RoundOptim.v, model RoundOptim.v, contract of the arithmetic SpecRoundOptim.v (met by IEEE arithmetic: C89_ieee), proofs in RoundOptimFacts.v. The invariant m^2 <= 54 v survives the roundings; steps below a quarter unit in the last place are absorbed by the subtraction.
* **C90** (Chebyshev family): C90_* in Properties_Cheb.v, proofs in ChebFacts.v. The relation of P_n^(a,b) with the derivative of P_(n-1)^(a+1,b+1) makes (P_n(cos t), its sine part) a solution of a rotation, hence a cosine.

## 6. Print Assumptions per theorem

`funext` is `functional_extensionality_dep`.  The table is the output of the
`Print Assumptions` commands in `Properties_*.v`.

| axioms | theorems |
|---|---|
| none (closed) | C15_bilinear_unchanged C24_lines C28_complete C28_missing_function C28_vector_complete C30_dtype C30_params C39_chain C41_device C41_distinct C41_no_gpu C42_plot_count C42_plot_defined C44_arguments C44_hard C44_roundtrip C48_constructor C51_bounded C51_default_refuted C51_no_gpu C51_sequential C51_shared_refuted C64_rows C65_names C74_variables C82_params |
| sig_forall_dec | C28_rows C28_vector C29_external C30_dirichlet C42_count_refuted C62_values C79_read |
| funext, sig_forall_dec | C01_accepted C01_count C01_tensor_layout C03_end_points C06_shape C08_jacobi_plain_refuted C08_vanish_on_boundary C11_bilinear_map C12_affine_map C18_returned C18_sides C18_stratified C18_too_few C19_ends C19_errors C19_uniform C20_lhs_edge C20_lhs_refuted C20_on_edge C21_independent C21_permutation C21_read C22_connectivity_refuted C22_points C23_distinct C23_grid C23_too_early C24_content C24_mismatch C26_isolation C26_range C27_linear C29_count_refuted C29_defined C29_handler C29_sensor C30_wrong_cells C31_cd2d C31_cd2d_inverse C31_cd2d_inverse_domain C31_helmholtz C31_missing C31_poisson C31_poisson_inverse C32_domain C32_helmholtz C32_inverse_cd2d C32_inverse_poisson C32_zero_coefficients C34_cd2d_inverse_refuted C34_domain C34_forward C34_inverse C34_mismatch C34_mismatch_type C35_domain C35_hard C35_inverse C35_nonneg C35_standard C35_zero C38_constant C38_keys C38_schedule C38_staircase_ignored C39_errors C39_layers C39_weights C43_aliasing_refuted C45_row_count_refuted C46_edges_first C46_quads_first_refuted C47_planar_refuted C47_refinement_ignored C48_external C48_internal C48_optimized_refuted C48_wrong_method C49_attention C49_domain_refuted C62_rectangular_refuted C62_square C64_domain_refuted C64_forward C64_inverse_refuted C64_means C64_quartiles C66_used C67_domain C67_hard C67_inverse C67_nonneg C67_order C67_standard C68_convex_domain C68_convex_field C68_convex_hard C68_convex_inverse C68_convex_standard C68_domain C68_field C68_hard C68_inverse C68_solutions C68_standard C69_field C69_minimiser C69_parabola C69_recovered C72_sensors_circle C72_sensors_usa C81_outputs |
| funext, sig_forall_dec, sig_not_dec | C02_gauss_legendre C03_gauss_lobatto C06_layout C07_derivatives C09_interchangeable C09_tables C10_independent C17_conforming C17_reversed_limits C17_succeeds C17_tiling C21_nonconvex_refuted C33_internal_mesh C36_pointwise C36_pointwise_domain C36_rows C37_boundary C37_default C37_gradient C39_forward C40_combined C40_distance C40_order C40_relative C40_scaling C40_shapes C40_values C44_hard_refuted C50_empty C50_refused C50_single_refuted C50_zero_solution C52_boundary_external C52_boundary_internal C53_boundary C58_convergence C58_error C58_sharp C61_span C63_networks C63_report C64_errors C65_files C66_ignored_refuted C70_domain C70_hard C70_inverse C70_standard C70_stationary C71_external_refuted C71_report C72_networks C72_report C72_rows C73_file C74_start C75_idle C75_stationary C76_coefficient C76_constant C76_settles C76_step C76_travel C78_moves C78_reach C78_schedule C80_column C80_report C80_rows C82_best C82_no_gpu C82_nothing C83_coefficient C83_network C83_odd C83_origin C83_study C84_between C84_steep C84_trained C88_kernel C89_idle C89_moments C89_step C89_travel C90_equation |
| classic, funext, sig_forall_dec, sig_not_dec | C04_affine_area_refuted C04_affine_convex C04_multipliers_area C05_gauss_jacobi C05_gauss_legendre C06_float_order C12_affine_agrees C13_jacobian C13_positive C14_chain_rule C14_unique C15_affine_degenerate C15_affine_second C15_bilinear_second_refuted C16_cell_tables C18_float_count C21_convex C25_errors C25_validation C27_forcing C27_forcing_vector C29_float_count C30_handler C30_pairing C33_convection_diffusion C33_diffusion_field C33_helmholtz C33_jacobi_plain_refuted C33_poisson C33_poisson_inverse C33_short_rule_refuted C36_attention_refuted C41_suggestions C42_space_counts C52_circle_inverse_refuted C52_convection_diffusion C52_field C52_gear_refuted C52_helmholtz C52_inverse C52_poisson C53_interior C54_hard C54_inverse C54_inverse_domain C54_standard C55_local C55_order C55_parts C56_similarity C57_affine_refuted C57_numbering C59_loss C59_residual C60_exact C60_solutions C61_converse C63_runs C65_runs C67_nearest C67_precision C71_runs C72_field C72_runs C73_const C73_domain C73_external C73_internal C74_differentiable C74_runs C75_descent C75_solved C77_domain_learns C77_domain_runs C77_domain_solved C77_external_learns C77_external_runs C77_external_solved C77_internal_learns C77_internal_runs C77_internal_solved C78_learns C78_runs C78_solved C80_learns C80_points_refuted C80_solved C81_const C81_domain C81_external C81_gear C81_internal C82_runs C82_stale_refuted C82_value C82_zero_refuted C84_script C85_barrier C85_barrier_helmholtz C85_hard C85_hard_network C85_helmholtz C85_network C85_poisson C85_script C85_smooth C85_stability C85_tanh C85_unique C85_zero_loss C86_arith C86_backprop C86_domain C86_gradient C86_hard C86_hard_backprop C86_hard_network C86_inverse C86_precision C86_shipped C86_standard C86_values C87_hard C87_poisson C87_script C88_circle C88_loss C88_usa_refuted C88_usa_sign_refuted C89_frozen C89_ieee C89_stops C90_bound C90_cosine C90_table C90_zeros |
