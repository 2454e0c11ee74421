{"id": "C01", "title": "Quadrature is a tensor product in a fixed order", "statement": "For a valid quadrature order n and either rule name, the 2D rule returned to the user has exactly n*n points and weights; entry i*n+j is the point (node_j, node_i) with weight w_i*w_j of the underlying 1D rule, so the rule applied to a product f(xi)*g(eta) is the product of the two 1D sums.", "quantifier": "every quadrature order, both rule names, every pair of functions", "why_tests_cant": "a test fixes one order and compares a few numbers; the index layout must be right for every order", "anchors": ["fastvpinns/FE/quadratureformulas_quad2d.py:Quadratureformulas_Quad2D.__init__", "fastvpinns/FE/quadratureformulas_quad2d.py:get_quad_values"]}
{"id": "C02", "title": "Gauss-Legendre rule is exact on the reference square", "statement": "With quad_type 'gauss-legendre' and order n, the 2D rule integrates every polynomial of degree at most 2n-1 in each variable exactly over [-1,1]^2; all points lie strictly inside the square, all weights are positive and they sum to 4.", "quantifier": "every order n, every polynomial of that bidegree", "why_tests_cant": "infinitely many orders and polynomials", "anchors": ["fastvpinns/FE/quadratureformulas_quad2d.py:Quadratureformulas_Quad2D.__init__"]}
{"id": "C03", "title": "The 'gauss-jacobi' rule is the exact Gauss-Lobatto rule", "statement": "With quad_type 'gauss-jacobi' and order n>=3, the nodes contain the end points -1 and 1, all weights are positive, the 2D weights sum to 4, and every polynomial of degree at most 2n-3 in each variable is integrated exactly over [-1,1]^2, although the code computes the weights itself by the closed formula 2/((n-1) n P_{n-1}(x)^2).", "quantifier": "every order n>=3, every polynomial of that bidegree", "why_tests_cant": "the weight formula could be right for tested orders and wrong for others", "anchors": ["fastvpinns/FE/quadratureformulas_quad2d.py:GaussLobattoJacobiWeights", "fastvpinns/FE/quadratureformulas_quad2d.py:GLWeights"]}
{"id": "C04", "title": "Quadrature multipliers of a cell sum to its area", "statement": "For every strictly convex quadrilateral with the 'bilinear' map, and every non-degenerate parallelogram with the 'affine' map, the multipliers (weight times Jacobian) reported for the cell are all positive and sum to the area of the polygon, for both quadrature rules and every order. With the 'affine' map on a strictly convex cell they sum to the area exactly when the diagonal from vertex 1 to vertex 3 halves the cell, so this fails for accepted cells.", "quantifier": "every cell geometry, both maps, both rules, every order", "why_tests_cant": "area tests sample a few meshes with tolerance 1e-2", "anchors": ["fastvpinns/FE/FE2D_Cell.py:FE2D_Cell.assign_quad_weights_and_jacobians", "fastvpinns/FE/quad_affine.py:get_jacobian", "fastvpinns/FE/quad_bilinear.py:get_jacobian"]}
{"id": "C05", "title": "Mesh quadrature integrates polynomials over the whole rectangle", "statement": "For the internally generated mesh of a rectangle, summing multiplier times f(point) over all quadrature points of all cells gives the exact integral of f over the rectangle for every polynomial f of degree at most 2n-1 (gauss-legendre) or 2n-3 (gauss-jacobi) in each variable.", "quantifier": "every rectangle, every nx, ny >= 1, every order, every polynomial", "why_tests_cant": "the statement couples mesh, map and rule for all sizes at once", "anchors": ["fastvpinns/Geometry/geometry_2d.py:generate_quad_mesh_internal", "fastvpinns/FE/FE2D_Cell.py:FE2D_Cell", "fastvpinns/FE/quadratureformulas_quad2d.py"]}
{"id": "C06", "title": "Basis tables have tensor-product layout", "statement": "For every basis family, every fe_order k and every list of points, value/gradx/grady/gradxx/gradxy/gradyy return k*k rows with one column per point, and row k*i+j is (i-th 1D function or its derivative in xi) times (j-th 1D function or its derivative in eta).", "quantifier": "every family, order, point list", "why_tests_cant": "row index order must be right for all orders", "anchors": ["fastvpinns/FE/basis_2d_QN_Legendre.py", "fastvpinns/FE/basis_2d_QN_Legendre_Special.py", "fastvpinns/FE/basis_2d_QN_Chebyshev_2.py", "fastvpinns/FE/basis_2d_QN_Jacobi.py"]}
{"id": "C07", "title": "Basis derivative tables are the true derivatives", "statement": "For every basis family, order and point, each entry of gradx/grady/gradxx/gradxy/gradyy is the corresponding partial derivative of the function whose values are in the value table.", "quantifier": "every family, every order, every real point", "why_tests_cant": "derivatives come from special-function identities whose coefficients may be wrong for untested orders", "anchors": ["fastvpinns/FE/basis_2d_QN_Legendre.py:djacobi,gradx", "fastvpinns/FE/basis_2d_QN_Legendre_Special.py:gradx", "fastvpinns/FE/basis_2d_QN_Chebyshev_2.py:gradx", "fastvpinns/FE/basis_2d_QN_Jacobi.py:gradx"]}
{"id": "C08", "title": "Test functions vanish on the element boundary", "statement": "For 'legendre', 'jacobi', 'legendre_special' and 'chebyshev_2' every test function of every order is zero on all four sides of the reference cell, hence no edge terms are missing in the weak form; 'jacobi_plain' does not have this property.", "quantifier": "every order, every function index, every boundary point", "why_tests_cant": "continuum of boundary points, all orders", "anchors": ["fastvpinns/FE/basis_2d_QN_Legendre.py:value", "fastvpinns/FE/basis_2d_QN_Legendre_Special.py:value", "fastvpinns/FE/basis_2d_QN_Chebyshev_2.py:value", "fastvpinns/FE/basis_2d_QN_Jacobi.py:value"]}
{"id": "C09", "title": "'legendre', its alias 'jacobi' and 'legendre_special' are interchangeable", "statement": "For every order and every point the three fe_type names produce identical value, gradient and second-derivative tables.", "quantifier": "every order, every point, all six tables", "why_tests_cant": "two different formulas must agree everywhere", "anchors": ["fastvpinns/FE/basis_2d_QN_Legendre.py", "fastvpinns/FE/basis_2d_QN_Legendre_Special.py", "fastvpinns/FE/fe2d_setup_main.py:assign_basis_function"]}
{"id": "C10", "title": "No redundant test function", "statement": "For every family and order the fe_order^2 test functions are linearly independent: a linear combination that is zero at all points has all coefficients zero.", "quantifier": "every family, order, coefficient vector", "why_tests_cant": "quantifies over all coefficient vectors", "anchors": ["fastvpinns/FE/basis_2d_QN_Legendre.py", "fastvpinns/FE/basis_2d_QN_Legendre_Special.py", "fastvpinns/FE/basis_2d_QN_Chebyshev_2.py", "fastvpinns/FE/basis_2d_QN_Jacobi.py"]}
{"id": "C11", "title": "The bilinear map carries the reference square onto the cell", "statement": "For every quadrilateral the bilinear map sends the reference corners (-1,-1),(1,-1),(1,1),(-1,1) to vertices 0,1,2,3 in this order, sends each reference side onto the straight edge between its vertices, and every point of the square to a convex combination of the four vertices (so all quadrature points of a convex cell lie in the cell).", "quantifier": "every four vertices, every reference point", "why_tests_cant": "continuum of cells and points", "anchors": ["fastvpinns/FE/quad_bilinear.py:set_cell", "fastvpinns/FE/quad_bilinear.py:get_original_from_ref"]}
{"id": "C12", "title": "The affine map is right exactly for parallelograms", "statement": "The affine map sends the reference corners to vertices 0,1,3, and to vertex 2 if and only if the cell is a parallelogram; in that case it agrees with the bilinear map in points, Jacobian and first derivatives.", "quantifier": "every four vertices", "why_tests_cant": "needs an iff over all cells", "anchors": ["fastvpinns/FE/quad_affine.py:set_cell", "fastvpinns/FE/quad_affine.py:get_original_from_ref", "fastvpinns/FE/quad_bilinear.py"]}
{"id": "C13", "title": "Jacobian is the absolute determinant of the map's derivative", "statement": "For both maps, every cell and every reference point, the reported Jacobian is the absolute value of the determinant of the matrix of partial derivatives of the reference-to-physical map; it is positive throughout the square when the cell is strictly convex, in either orientation.", "quantifier": "every cell, every reference point", "why_tests_cant": "continuum", "anchors": ["fastvpinns/FE/quad_affine.py:get_jacobian", "fastvpinns/FE/quad_bilinear.py:get_jacobian"]}
{"id": "C14", "title": "Physical gradients obey the chain rule", "statement": "For both maps, whenever the Jacobian is nonzero, the returned (d/dx, d/dy) are the unique values satisfying the chain rule with the given reference derivatives: for every differentiable u on the physical cell, feeding the reference derivatives of u composed with the map returns the physical partial derivatives of u at the mapped point.", "quantifier": "every cell, point, differentiable function", "why_tests_cant": "function space quantification", "anchors": ["fastvpinns/FE/quad_affine.py:get_orig_from_ref_derivative", "fastvpinns/FE/quad_bilinear.py:get_orig_from_ref_derivative"]}
{"id": "C15", "title": "Second derivatives", "statement": "With the affine map the second physical derivatives returned satisfy the second-order chain rule for every non-degenerate cell. With the bilinear map they are the reference derivatives unchanged, so the property fails already for an axis-aligned square of side 1.", "quantifier": "every cell, point, twice differentiable function", "why_tests_cant": "function space quantification", "anchors": ["fastvpinns/FE/quad_affine.py:get_orig_from_ref_second_derivative", "fastvpinns/FE/quad_bilinear.py:get_orig_from_ref_second_derivative"]}
{"id": "C16", "title": "Per-cell tables are weighted physical basis data", "statement": "For every accepted configuration and every cell, entry (i,q) of the table from get_shape_function_val is weight_q*|J_q|*phi_i(point q) and of get_shape_function_grad_x / grad_y the same with the physical partial derivative of the transported test function; the *_ref getters return the unscaled reference derivative, and the coordinates getter the mapped points, all in one common order of q.", "quantifier": "every configuration, cell, i, q", "why_tests_cant": "whole-pipeline statement over all configurations", "anchors": ["fastvpinns/FE/FE2D_Cell.py:assign_basis_values_at_quadrature_points", "fastvpinns/FE/FE2D_Cell.py:assign_quadrature_coordinates", "fastvpinns/FE/fespace2d.py:get_shape_function_grad_x"]}
{"id": "C17", "title": "Internal mesh tiles the rectangle", "statement": "generate_quad_mesh_internal with nx, ny >= 1 on a non-degenerate rectangle returns nx*ny cells; every cell is an axis-aligned rectangle with vertices listed anticlockwise from the lower left; cells cover the rectangle, have disjoint interiors, equal size, and neighbours share exactly the same edge end points.", "quantifier": "every rectangle, every nx, ny, every point of the rectangle", "why_tests_cant": "cover/disjointness over a continuum and all sizes", "anchors": ["fastvpinns/Geometry/geometry_2d.py:generate_quad_mesh_internal"]}
{"id": "C18", "title": "Internal boundary points lie on the right side", "statement": "Each of the four boundary ids 1000..1003 gets exactly floor(num_boundary_points/4) points, all on the bottom, right, top, left side respectively and inside the limits, whatever the random sampler returns in [0,1]; with a Latin hypercube sampler each of the equal sub-intervals of the side holds exactly one point.", "quantifier": "every rectangle, every count, every sampler outcome", "why_tests_cant": "random samples", "anchors": ["fastvpinns/Geometry/geometry_2d.py:generate_quad_mesh_internal"]}
{"id": "C19", "title": "External boundary points under 'uniform' sampling", "statement": "For every mesh and boundary refinement level L >= 0, the points reported for a tag are exactly the points p1 + k/2^L (p2-p1), k=0..2^L, of the boundary edges with this tag, without repetition and in lexicographic order; every edge's end points are included; tags with no edges get no entry.", "quantifier": "every mesh, tag, level", "why_tests_cant": "all meshes", "anchors": ["fastvpinns/Geometry/geometry_2d.py:read_mesh"]}
{"id": "C20", "title": "External boundary points under 'lhs' sampling lie on the boundary", "statement": "With bd_sampling_method 'lhs' every sampled point lies on its boundary edge. (The x and y coordinates are sampled independently, so this holds only for axis-parallel edges.)", "quantifier": "every edge, every sampler outcome", "why_tests_cant": "random samples; the tests use the method only for a smoke test", "anchors": ["fastvpinns/Geometry/geometry_2d.py:read_mesh"]}
{"id": "C21", "title": "Vertex reordering keeps the cell and makes it anticlockwise", "statement": "Sorting the vertices of a cell by angle about their centroid is a permutation of the vertices, independent of the order in which they were listed when angles differ; for every strictly convex cell the result is its anticlockwise boundary, so the Jacobian is positive. For non-convex cells the reordering can change the polygon.", "quantifier": "every four points", "why_tests_cant": "continuum of cells", "anchors": ["fastvpinns/Geometry/geometry_2d.py:read_mesh", "fastvpinns/Geometry/geometry_2d.py:generate_quad_mesh_internal"]}
{"id": "C22", "title": "The mesh object of an internal mesh describes the returned cells", "statement": "Looking up the connectivity of the generated mesh object in its point list gives back the returned cells. (The connectivity array holds coordinates instead of indices, so this fails.)", "quantifier": "every internal mesh", "why_tests_cant": "tests never look at the connectivity", "anchors": ["fastvpinns/Geometry/geometry_2d.py:generate_quad_mesh_internal"]}
{"id": "C23", "title": "Test points form the full grid", "statement": "For an internal geometry get_test_points returns n_test_points_x*n_test_points_y points inside the rectangle; row j*nx+i is (x_i, y_j) of the two uniform subdivisions, both end points included; all rows are distinct when the rectangle is non-degenerate.", "quantifier": "every size and rectangle", "why_tests_cant": "all sizes", "anchors": ["fastvpinns/Geometry/geometry_2d.py:get_test_points"]}
{"id": "C24", "title": "write_vtk is all-or-nothing on a name mismatch and keeps the template", "statement": "If the number of solution columns differs from the number of names, write_vtk raises ValueError and leaves an existing output file untouched; otherwise the output is the template up to and including its first POINT_DATA line followed, for each column in order, by its name header and exactly the values of that column.", "quantifier": "every template, solution matrix, list of names, prior file content", "why_tests_cant": "file-system history", "anchors": ["fastvpinns/Geometry/geometry_2d.py:write_vtk"]}
{"id": "C25", "title": "Configuration validation", "statement": "Building a finite element space succeeds exactly when there is at least one cell, the cell type is 'quadrilateral', 1 < fe_order < 1000, 3 <= quad_order <= 9999, fe_type, quad_type and the transformation name are among the documented names, every boundary tag that has at least one point has a boundary function (and, when the mesh plot is requested, there are at most 15 tags, none without points) and, for the affine map, every cell has nonzero Jacobian determinant; every other configuration raises an error and no object is produced.", "quantifier": "every configuration", "why_tests_cant": "iff over all names and integers", "anchors": ["fastvpinns/FE/fe2d_setup_main.py", "fastvpinns/FE/fespace2d.py:Fespace2D.__init__", "fastvpinns/FE/quadratureformulas_quad2d.py", "fastvpinns/Geometry/geometry_2d.py:Geometry_2D.__init__"]}
{"id": "C26", "title": "Getters: range check and isolation over any history", "statement": "Every per-cell getter raises ValueError exactly when the index is negative or not less than the number of cells, and otherwise returns that cell's data. Whatever sequence of getter calls is made and however the caller overwrites the arrays it received, later getter calls return the same data.", "quantifier": "every history of calls and caller writes", "why_tests_cant": "quantifies over histories and aliasing", "anchors": ["fastvpinns/FE/fespace2d.py:get_shape_function_val", "fastvpinns/FE/fespace2d.py:get_quadrature_weights"]}
{"id": "C27", "title": "Forcing vector", "statement": "get_forcing_function_values(c)[i] is the sum over quadrature points of multiplier*phi_i*f at the physical points; it is linear in f, and calling it (or its vector variant) repeatedly, in any order and for any cells, never changes any later result.", "quantifier": "every forcing function, cell, history", "why_tests_cant": "function and history quantification", "anchors": ["fastvpinns/FE/fespace2d.py:get_forcing_function_values", "fastvpinns/FE/fespace2d.py:get_forcing_function_values_vector"]}
{"id": "C28", "title": "Dirichlet data", "statement": "generate_dirichlet_boundary_data returns one row per boundary point, in the order of the tags, each paired with the value of the boundary function of its own tag at exactly that point; a tag with at least one point and without a function raises KeyError, and nothing else fails. generate_dirichlet_boundary_data_vector does the same with one component of vector-valued functions, IndexError if there is no such component.", "quantifier": "every boundary dictionary and functions", "why_tests_cant": "all dictionaries and functions", "anchors": ["fastvpinns/FE/fespace2d.py:generate_dirichlet_boundary_data", "fastvpinns/FE/fespace2d.py:generate_dirichlet_boundary_data_vector", "fastvpinns/data/datahandler2d.py:get_dirichlet_input"]}
{"id": "C29", "title": "Sensor data for inverse problems", "statement": "get_sensor_data returns as many points as requested (it returns int(0.9 n), so this fails), all inside the bounding box of the mesh, each with the exact solution at that point; get_sensor_data_external returns exactly n pairs, each a row of the file. The data handler returns these by mesh type (internal, external) with the values as one column, and raises UnboundLocalError for any other mesh type.", "quantifier": "every count, mesh, sampler outcome", "why_tests_cant": "random samples; count for all n", "anchors": ["fastvpinns/FE/fespace2d.py:get_sensor_data", "fastvpinns/FE/fespace2d.py:get_sensor_data_external", "fastvpinns/data/datahandler2d.py:get_sensor_data"]}
{"id": "C30", "title": "Assembled tensors pair every network value with its own quadrature point", "statement": "In the assembled training data row c*nq+q of the network input is quadrature point q of cell c, slice c of each premultiplier belongs to cell c, column c of the forcing matrix to cell c, and the reshape inside the training step puts the network value of row c*nq+q at position (c,q): no value is ever combined with the table of another point or cell. The parameter dictionaries keep their keys and their order, and every value is converted.", "quantifier": "every number of cells, tests, quadrature points", "why_tests_cant": "index bijection for all sizes", "anchors": ["fastvpinns/data/datahandler2d.py:DataHandler2D.__init__", "fastvpinns/model/model.py:train_step"]}
{"id": "C31", "title": "Loss functions compute the mean-square weak residual", "statement": "Each shipped loss returns per cell the mean over test functions of the square of: eps*(Gx.ux+Gy.uy)-F (Poisson), plus b.grad u and c u terms (convection-diffusion), or -eps*(...)+k^2 u - F (Helmholtz); it is never negative and is zero exactly when every discrete weak equation of that cell holds.", "quantifier": "all tensors, coefficients and sizes", "why_tests_cant": "all inputs", "anchors": ["fastvpinns/physics/poisson2d.py", "fastvpinns/physics/cd2d.py", "fastvpinns/physics/helmholtz2d.py"]}
{"id": "C32", "title": "Consistency between the loss functions", "statement": "Convection-diffusion with b=c=0 equals Poisson; each inverse loss equals its forward loss at the current parameter value; the domain-inverse loss with a constant parameter field equals the convection-diffusion loss; Helmholtz with (eps,k,F) equals convection-diffusion with (eps,b=0,c=-k^2,-F).", "quantifier": "all tensors and coefficients", "why_tests_cant": "all inputs", "anchors": ["fastvpinns/physics"]}
{"id": "C33", "title": "Exact polynomial solutions have zero PDE loss", "statement": "On an internal mesh (and on every parallelogram cell), for test functions vanishing on the boundary, if u is a polynomial satisfying -eps*Lap u + b.grad u + c u = f (Poisson: b=c=0; Helmholtz: eps*Lap u + k^2 u = f) and the rule is exact for the products involved, then the training PDE loss evaluated with u and its gradient is exactly zero: the code solves the PDE it claims to solve, with the claimed signs.", "quantifier": "every polynomial solution, coefficients, mesh, order", "why_tests_cant": "end-to-end over all manufactured solutions", "anchors": ["fastvpinns/physics", "fastvpinns/FE/FE2D_Cell.py", "fastvpinns/Geometry/geometry_2d.py", "fastvpinns/data/datahandler2d.py"]}
{"id": "C34", "title": "Loss functions can be called by the models", "statement": "Every loss function shipped in physics/ accepts the keyword arguments with which the corresponding model's training step calls it. A loss used with the wrong model is refused with a TypeError. (cd2d_inverse uses different parameter names from those the inverse model passes, so this fails.)", "quantifier": "every pairing of shipped loss and model", "why_tests_cant": "no test builds this pairing", "anchors": ["fastvpinns/physics/cd2d_inverse.py:pde_loss_cd2d", "fastvpinns/model/model_inverse.py:train_step"]}
{"id": "C35", "title": "Composition of the training loss", "statement": "In every training step: standard model loss = sum of cell losses + beta*mean squared boundary error; hard model loss = sum of cell losses, independent of beta and of boundary data; inverse models add 10*mean squared sensor error. All are non-negative for beta >= 0 and zero iff every part is zero (beta>0).", "quantifier": "all tensors, beta", "why_tests_cant": "all inputs", "anchors": ["fastvpinns/model/model.py:train_step", "fastvpinns/model/model_hard.py:train_step", "fastvpinns/model/model_inverse.py:train_step", "fastvpinns/model/model_inverse_domain.py:train_step"]}
{"id": "C36", "title": "Gradients used in the residual are pointwise derivatives", "statement": "For a network of dense layers (no attention) the gradient of the summed outputs with respect to input row r equals the gradient of the network function at the point of row r, independent of the other rows and of batch order. With use_attention=True outputs of a row depend on other rows, so this fails.", "quantifier": "every network, batch, row", "why_tests_cant": "all weights and batches", "anchors": ["fastvpinns/model/model.py:call", "fastvpinns/model/model.py:train_step"]}
{"id": "C37", "title": "Hard constraints hold throughout training", "statement": "If the constraint function returns g(x) on the boundary irrespective of its second argument, then the hard model's prediction equals g on the boundary for every weight value, hence after every number of training steps; without a constraint function the model is the plain network.", "quantifier": "every weights history", "why_tests_cant": "histories", "anchors": ["fastvpinns/model/model_hard.py:call"]}
{"id": "C38", "title": "Learning-rate schedule", "statement": "With the scheduler the rate at step t is lr0*rate^floor(t/decay_steps): constant within a block and never increasing for 0<=rate<=1; without it constant. The user's 'staircase' setting has no effect, yet its absence is a KeyError for the hard and inverse model only.", "quantifier": "every step and dictionary", "why_tests_cant": "all steps", "anchors": ["fastvpinns/model/model.py", "fastvpinns/model/model_hard.py", "fastvpinns/model/model_inverse.py", "fastvpinns/model/model_inverse_domain.py"]}
{"id": "C39", "title": "Network architecture", "statement": "For layer_dims of length m>=2 the network is exactly m-1 dense layers, layer i mapping layer_dims[i] to layer_dims[i+1] values, activation on all but the last; shapes always compose and the number of weights is sum (d_i+1) d_{i+1}.", "quantifier": "every layer_dims", "why_tests_cant": "all lists", "anchors": ["fastvpinns/model/model.py:__init__,call"]}
{"id": "C40", "title": "Error metrics are what their names say", "statement": "compute_l1/l2/linf errors are non-negative, zero iff the arrays agree, symmetric, satisfy the triangle inequality and l1<=l2<=linf; the relative versions are invariant under scaling both arrays by the same nonzero factor; the combined function returns exactly these six numbers in documented order.", "quantifier": "all arrays", "why_tests_cant": "all inputs", "anchors": ["fastvpinns/utils/compute_utils.py"]}
{"id": "C41", "title": "Hyperparameter search assigns valid devices and configurations", "statement": "With g>=1 GPUs every trial gets a device index in [0,g), any g consecutive trials get distinct devices; with no GPU the objective cannot run (ZeroDivisionError). Every suggestion drawn from the search space is accepted by the space construction.", "quantifier": "every trial number, every GPU count, every suggestion", "why_tests_cant": "all trials and draws", "anchors": ["fastvpinns/hyperparameter_tuning/optuna_tuner.py", "fastvpinns/hyperparameter_tuning/objective.py"]}
{"id": "C42", "title": "Mesh plot bookkeeping", "statement": "The number of boundary points reported after plotting equals the number of boundary points (it is too large by one per tag, so this fails); plotting raises IndexError exactly when there are 16 or more tags or a tag without points. After building a space total_dofs is the number of cells times the number of quadrature points of a cell and total_dirichlet_dofs the number of boundary points, with or without a plot.", "quantifier": "every boundary dictionary", "why_tests_cant": "all dictionaries", "anchors": ["fastvpinns/FE/fespace2d.py:generate_plot"]}
{"id": "C43", "title": "A forcing function cannot damage the space", "statement": "Whatever a user-supplied array forcing function does with the coordinate arrays it receives in get_forcing_function_values_vector, later calls of the coordinate getter return the same quadrature points. (The function receives views of the stored coordinates, so a function that updates its argument in place changes them: this fails. It holds for functions that do not write to their arguments, see C26.)", "quantifier": "every forcing function, space and history", "why_tests_cant": "Tests call the vector variant with pure functions only; the sharing shows only after an in-place update followed by another read.", "anchors": ["fastvpinns/FE/fespace2d.py:611-641"]}
{"id": "C44", "title": "Rebuilding a hard-constraint model from its configuration keeps the constraint", "statement": "A DenseModel_Hard rebuilt from its own get_config() computes the same predictions. (get_config omits hard_constraint_function, so the rebuilt model uses the default constraint that returns the network output unchanged: this fails. The plain model's configuration contains every constructor argument.)", "quantifier": "every model, weights and constraint", "why_tests_cant": "Tests never rebuild a model from its configuration, and every constraint has to be considered.", "anchors": ["fastvpinns/model/model_hard.py:230-256", "fastvpinns/model/model.py:208-235"]}
{"id": "C45", "title": "write_vtk checks the number of rows", "statement": "write_vtk only succeeds when the number of solution rows equals the number of points of the template. (Only the number of columns is checked, so this fails: any number of rows is written after any POINT_DATA header.)", "quantifier": "every template and solution", "why_tests_cant": "Every template and row count; tests write matching data only.", "anchors": ["fastvpinns/Geometry/geometry_2d.py:449-493"]}
{"id": "C46", "title": "Boundary points are stored under the reference of their own edge", "statement": "After read_mesh, both end points of every boundary edge of the file are among the points stored under the reference number the file gives to that edge, whatever the order of the sections of the file. (The references of the first section are used, so this holds when the edge section comes first and fails when the quadrilateral section comes first.)", "quantifier": "every mesh file", "why_tests_cant": "Tests use one file with the edges first.", "anchors": ["fastvpinns/Geometry/geometry_2d.py:read_mesh"]}
{"id": "C47", "title": "Two-dimensional mesh files and refinement", "statement": "read_mesh accepts valid .mesh files of dimension two, and a different refinement level gives a different mesh. (The edge coordinates are reshaped to rows of three numbers, so a two-dimensional file is refused with ValueError unless the number of edges is a multiple of three; the refinement level is not used at all.)", "quantifier": "every two-dimensional file, every refinement level", "why_tests_cant": "Tests use three-dimensional files and level one.", "anchors": ["fastvpinns/Geometry/geometry_2d.py:read_mesh"]}
{"id": "C48", "title": "Geometry object life cycle", "statement": "The constructor accepts exactly the methods internal and external with quadrilateral meshes. After a mesh has been generated or read with the matching method, the template needed by write_vtk exists and no other file has changed; using the other method's mesh call on a fresh object fails. (With is_optimized=True no template is written and write_vtk raises FileNotFoundError, so the claim fails for that option.)", "quantifier": "every geometry object, file system and mesh", "why_tests_cant": "Sequences of calls over every file system state.", "anchors": ["fastvpinns/Geometry/geometry_2d.py"]}
{"id": "C49", "title": "Attention works with every model", "statement": "use_attention=True can be used with every model class: the constructor and the forward call succeed as they do without attention. (Holds for the standard, hard and inverse model. model_inverse_domain builds itself before attention_layer is assigned, so its constructor always fails with AttributeError when use_attention=True.)", "quantifier": "every layer_dims, learning rate dictionary and number of cells", "why_tests_cant": "Tests construct the inverse domain model without attention only; the claim is about every model and every argument.", "anchors": ["fastvpinns/model/model.py", "fastvpinns/model/model_hard.py", "fastvpinns/model/model_inverse.py", "fastvpinns/model/model_inverse_domain.py:143-190"]}
{"id": "C50", "title": "Error measures refuse arrays of different sizes and give numbers", "statement": "Comparing arrays with different numbers of entries is refused with ValueError. (Fails when one of them has exactly one entry: numpy broadcasting compares it with every entry of the other.) For a zero exact solution the relative errors are nan (equal arrays) or inf; for empty arrays l2 and l1 are nan and the maximum error is a ValueError.", "quantifier": "all arrays of all sizes", "why_tests_cant": "Tests use a few arrays of equal size.", "anchors": ["fastvpinns/utils/compute_utils.py"]}
{"id": "C51", "title": "Parallel trials and devices", "statement": "The tuner never runs more trials at the same time than there are GPUs and no two running trials share a GPU. (With n_jobs >= 1 the first part holds; the default n_jobs = -1 uses as many workers as processors. The second part fails for two or more workers: a long trial meets a later one with the same number modulo the GPU count.)", "quantifier": "every number of processors, GPUs and jobs, every order in which trials end", "why_tests_cant": "Interleavings of trials, and machines with several GPUs.", "anchors": ["fastvpinns/hyperparameter_tuning/optuna_tuner.py:39-56"]}
{"id": "C52", "title": "Shipped examples are manufactured correctly", "statement": "In every example directory the exact_solution solves the equation of the loss function used there, with the rhs and the coefficients of the same file (Poisson, Helmholtz, convection-diffusion, constant and field inverse problems); for the constant inverse problem the actual parameter is the only one for which this holds; and the boundary functions give the values of exact_solution on the part of the boundary to which their tag is assigned, so the Dirichlet data built from them are values of the exact solution. (Fails for complex_mesh/cd2d_gear and domain_inverse_cd2d/circle, whose exact_solution is a zero placeholder: errors reported against it mean nothing.)", "quantifier": "all points of the plane, all numbers of boundary points, all samples", "why_tests_cant": "a differential equation at every point; the examples are not tested", "anchors": ["examples/forward_problems_2d", "examples/inverse_problems_2d", "fastvpinns/Geometry/geometry_2d.py:generate_quad_mesh_internal", "fastvpinns/FE/fespace2d.py:generate_dirichlet_boundary_data"]}
{"id": "C53", "title": "The hard constraint of the shipped example", "statement": "With the ansatz of the hard-constraint example every network, whatever its weights, gives exactly the prescribed boundary values on all four sides of the unit square, and off these sides every value can still be produced by exactly one raw network value, so the constraint does not restrict the solution inside.", "quantifier": "every network, batch, point", "why_tests_cant": "all weights and all points", "anchors": ["examples/forward_problems_2d/hard_boundary_constraints/poisson_2d/main_poisson2d_hard.py:153", "fastvpinns/model/model_hard.py:call"]}
{"id": "C54", "title": "Zero loss means the weak equations hold", "statement": "For the standard, hard-constraint, inverse and inverse-domain models with the shipped losses (Poisson, convection-diffusion, Helmholtz, their inverse variants) and beta > 0: the total loss of a training step is never negative, and it is zero exactly when the network satisfies the discrete weak equation against every test function of every cell (as the getters of the space give them) and has the prescribed value at every boundary point of every tag (not for the hard model, which has no boundary term) and, for the inverse models, the given value at every sensor point. Nothing else can make it vanish and nothing is left out.", "quantifier": "every mesh, configuration, forcing, boundary data, parameter values, sensors and network", "why_tests_cant": "an equivalence over all networks and meshes; a loss that drops a cell, test function or boundary part still decreases in every test run", "anchors": ["fastvpinns/model/model.py:train_step", "fastvpinns/model/model_hard.py:train_step", "fastvpinns/model/model_inverse.py:train_step", "fastvpinns/model/model_inverse_domain.py:train_step", "fastvpinns/physics", "fastvpinns/data/datahandler2d.py"]}
{"id": "C55", "title": "Every cell contributes on its own", "statement": "The PDE loss is the sum over the cells of a non-negative amount that depends on the cell, the configuration, the equation and the network only: not on the other cells, their number or order, the boundary data, the sensors or beta. So renumbering the cells of a mesh changes neither the PDE loss nor the total loss, and the PDE loss of a mesh put together from two meshes is the sum of theirs.", "quantifier": "every mesh, permutation, configuration, loss and network", "why_tests_cant": "all meshes and all renumberings; tests use one mesh", "anchors": ["fastvpinns/FE/fespace2d.py:set_finite_elements", "fastvpinns/data/datahandler2d.py", "fastvpinns/physics", "fastvpinns/model/model.py:train_step"]}
{"id": "C56", "title": "Losses do not depend on the coordinate system or the unit of length", "statement": "Move the mesh and the boundary points by a similarity of the plane (rotation, reflection, translation, scaling by any factor) and express the network, the forcing, the boundary functions, the convection vector and the reaction coefficient (the wave number for Helmholtz) in the new coordinates and units: the moved mesh is accepted again and the PDE loss and the total loss are unchanged, for the standard and the hard model and for both transformations of the cells.", "quantifier": "every similarity, every mesh of strictly convex cells, every configuration, equation and network", "why_tests_cant": "all similarities and all meshes", "anchors": ["fastvpinns/FE/quad_affine.py", "fastvpinns/FE/quad_bilinear.py", "fastvpinns/FE/fespace2d.py", "fastvpinns/physics", "fastvpinns/model/model.py:train_step"]}
{"id": "C57", "title": "Losses do not depend on how vertices and cells are numbered", "statement": "Listing the cells in another order and the four vertices of each cell from another corner or in the opposite direction describes the same mesh: it is accepted again and the PDE loss and the total loss are unchanged, for the standard, the hard, the inverse and the inverse-domain model, for all families of test functions and both quadrature types. This holds for the bilinear map and for parallelograms; with the affine map on other cells the loss depends on which vertex comes first.", "quantifier": "every mesh of strictly convex cells, every renumbering, every configuration, equation and network", "why_tests_cant": "all meshes and all numberings; needs the symmetry of the quadrature rules and the parity of all test functions", "anchors": ["fastvpinns/FE/quad_bilinear.py", "fastvpinns/FE/quad_affine.py", "fastvpinns/FE/quadratureformulas_quad2d.py", "fastvpinns/FE/basis_2d_QN_Legendre.py", "fastvpinns/FE/fespace2d.py", "fastvpinns/model/model.py:train_step"]}
{"id": "C58", "title": "The quadrature rules converge, with a stated error and no hidden extra exactness", "statement": "For a continuous function on the reference square, the 2D rule of either type (gauss-legendre, gauss-jacobi) differs from the exact integral by at most 8 times the distance of the function to the polynomials the rule integrates exactly (degree below 2n resp. 2n-2 in each variable). Hence the value tends to the exact integral as quad_order grows, for every continuous function, whichever type is used. The exactness stated is the best possible: with one more degree per variable some polynomial is integrated wrongly, by every accepted rule.", "quantifier": "every continuous function, every order, both rule types, every eps", "why_tests_cant": "a limit over all orders and all continuous functions; tests check some polynomials", "anchors": ["fastvpinns/FE/quadratureformulas_quad2d.py"]}
{"id": "C59", "title": "The training loss is the exact weak-form loss up to a stated quadrature error", "statement": "For continuous data the residual a training step uses for a cell and a test function is within 8 eps of the exact integral of the weak form over the cell, and the square root of the PDE loss is within 8 eps sqrt(number of cells) of the square root of the loss with exact integrals, where eps is the largest distance of an integrand of the weak form, on the reference square, to the polynomials the rule integrates exactly. This holds for the standard, hard, inverse and inverse-domain models, for the bilinear and the affine map.", "quantifier": "every accepted space of strictly convex cells, every equation, network with continuous values and gradient, forcing and eps", "why_tests_cant": "bounds for all networks and meshes; tests compare a few loss values", "anchors": ["fastvpinns/FE/fespace2d.py", "fastvpinns/FE/quadratureformulas_quad2d.py", "fastvpinns/FE/quad_bilinear.py", "fastvpinns/FE/quad_affine.py", "fastvpinns/physics/poisson2d.py", "fastvpinns/physics/cd2d.py", "fastvpinns/physics/helmholtz2d.py", "fastvpinns/model/model.py:train_step", "fastvpinns/model/model_hard.py:train_step", "fastvpinns/model/model_inverse.py:train_step", "fastvpinns/model/model_inverse_domain.py:train_step"]}
{"id": "C60", "title": "Solutions of the differential equation have zero loss up to quadrature error", "statement": "If u solves - div(a grad u) + b . grad u + c u = f at every point of every cell, with continuously differentiable fluxes, and the network equals u with its gradient there, then with exact integrals the PDE loss is zero for every number of test functions of a family that vanishes on the boundary of the cell (all but jacobi_plain), and the loss of a training step is at most 64 eps^2 (number of cells), eps as in C59. u need not be a polynomial. Standard, hard, inverse and inverse-domain models, bilinear and affine map.", "quantifier": "every solution u, coefficient, forcing, mesh of strictly convex cells, fe_order, eps", "why_tests_cant": "ranges over all solutions and meshes; needs integration by parts on mapped cells", "anchors": ["fastvpinns/FE/fespace2d.py", "fastvpinns/FE/quadratureformulas_quad2d.py", "fastvpinns/FE/quad_bilinear.py", "fastvpinns/FE/quad_affine.py", "fastvpinns/physics/poisson2d.py", "fastvpinns/physics/cd2d.py", "fastvpinns/physics/helmholtz2d.py", "fastvpinns/model/model.py:train_step", "fastvpinns/model/model_hard.py:train_step", "fastvpinns/model/model_inverse.py:train_step", "fastvpinns/model/model_inverse_domain.py:train_step", "fastvpinns/FE/basis_2d_QN_Legendre.py"]}
{"id": "C61", "title": "Only solutions of the differential equation have zero loss for every number of test functions", "statement": "For every family but jacobi_plain the first k test functions span exactly the polynomials of degree at most k+1 that vanish at -1 and 1. Hence, with exact integrals, the PDE loss of a network equal to u (with its gradient) on strictly convex cells is zero for every number of test functions if and only if u solves - div(a grad u) + b . grad u + c u = f at every point of every cell, for u with continuous derivatives and continuously differentiable fluxes and continuous f.", "quantifier": "every u, coefficient, forcing, mesh of strictly convex cells, family that vanishes on the boundary", "why_tests_cant": "quantifies over all functions and all numbers of test functions; needs density of the test space", "anchors": ["fastvpinns/FE/basis_2d_QN_Legendre.py", "fastvpinns/FE/basis_2d_QN_Legendre_Special.py", "fastvpinns/FE/basis_2d_QN_Chebyshev_2.py", "fastvpinns/FE/basis_2d_QN_Jacobi.py", "fastvpinns/FE/quad_bilinear.py", "fastvpinns/FE/quad_affine.py", "fastvpinns/physics/poisson2d.py", "fastvpinns/physics/cd2d.py", "fastvpinns/physics/helmholtz2d.py"]}
{"id": "C62", "title": "Contour plots show every value at its own point", "statement": "In the plots of the scripts on internal meshes, every entry of the three matrices given to plot_contour belongs to one test point and its value. If the numbers of test points in x and in y are equal the matrices form the rectangular grid of the test points. If they differ they form no grid at all, neither as they are nor transposed, so the picture is wrong (refuted).", "quantifier": "every limit, number of test points, value", "why_tests_cant": "pictures are not compared, and the shipped inputs use equal numbers", "anchors": ["examples/forward_problems_2d/uniform_mesh/poisson_2d/main_poisson2d.py", "examples/forward_problems_2d/uniform_mesh/poisson_2d/utility.py", "fastvpinns/utils/plot_utils.py", "fastvpinns/Geometry/geometry_2d.py"]}
{"id": "C63", "title": "A forward script reports the losses and errors of the weights it says", "statement": "If a forward script on an internal mesh finishes then its loss file has one entry per epoch, entry t being the loss of the weights before step t; the stored prediction, the stored error, the printed errors and the saved weights all belong to the final weights; the test curve has one value for every epoch whose number is a multiple of the update period and for the last epoch, in order. With admissible settings the script finishes if it has at least one epoch and a non-zero period; with no epoch it ends in a NameError, with period zero in a ZeroDivisionError.", "quantifier": "every setting, problem, sequence of weights", "why_tests_cant": "quantifies over all settings and weight histories; scripts are not tested", "anchors": ["examples/forward_problems_2d/uniform_mesh/poisson_2d/main_poisson2d.py", "examples/forward_problems_2d/uniform_mesh/helmholtz_2d/main_helmholtz.py", "examples/forward_problems_2d/hard_boundary_constraints/poisson_2d/main_poisson2d_hard.py"]}
{"id": "C64", "title": "The printed tables put every number beside its label", "statement": "A printed table pairs the two columns row by row; the error table pairs each of the six errors with its own name; the time table of the forward scripts shows the sum and the mean of the epoch times and the whole number of epochs per second. The tables of the inverse scripts show the mean epoch time without the first epoch, and for the constant-coefficient script with it. The constant-coefficient inverse script's total leaves out the first epoch, and the domain-inverse scripts print the epochs per second under Total Train Time, because a comma is missing in the list of labels (refuted).", "quantifier": "every list of times, error values", "why_tests_cant": "the console output of the scripts is not tested", "anchors": ["fastvpinns/utils/print_utils.py", "examples/forward_problems_2d/uniform_mesh/poisson_2d/main_poisson2d.py", "examples/inverse_problems_2d/const_inverse_poisson2d/main_inverse.py", "examples/inverse_problems_2d/domain_inverse_cd2d/circle/main_inverse_domain_circle.py", "examples/inverse_problems_2d/domain_inverse_cd2d/USA/main_inverse_domain_usa.py"]}
{"id": "C65", "title": "The scripts on mesh files leave one .vtk file per report with that report's prediction", "statement": "If a forward script on a mesh file finishes then for every report epoch t there is a file prediction_<t+1>.vtk holding the template up to its POINT_DATA line, then the prediction with the weights after step t, the exact solution and the absolute error; different epochs have different names; external.vtk is unchanged and so is every other file. With admissible settings and mesh file the script finishes.", "quantifier": "every setting, mesh file, problem, sequence of weights, file system", "why_tests_cant": "quantifies over weight histories and file systems; scripts are not tested", "anchors": ["examples/forward_problems_2d/complex_mesh/poisson2d/main_poisson2d.py", "examples/forward_problems_2d/complex_mesh/cd2d/main_cd2d.py", "examples/forward_problems_2d/complex_mesh/cd2d_gear/main_gear_cd2d.py", "examples/forward_problems_2d/complex_mesh/helmholtz2d/main_helmholtz.py", "fastvpinns/Geometry/geometry_2d.py"]}
{"id": "C66", "title": "The scripts build the layers of the input file", "statement": "The convection-diffusion and Helmholtz scripts on mesh files build dense layers with the widths of model_architecture in the input file. The Poisson scripts and the scripts on uniform meshes ignore it and always build 2-30-30-30-1 (refuted).", "quantifier": "every architecture", "why_tests_cant": "no test compares the built layers with the input file", "anchors": ["examples/forward_problems_2d/uniform_mesh/poisson_2d/main_poisson2d.py", "examples/forward_problems_2d/complex_mesh/poisson2d/main_poisson2d.py", "examples/forward_problems_2d/complex_mesh/cd2d/main_cd2d.py", "examples/forward_problems_2d/complex_mesh/helmholtz2d/main_helmholtz.py"]}
{"id": "C67", "title": "Rounding errors of the training step are bounded", "statement": "If every operation has relative error at most u and the tables, forcing, boundary and sensor values and coefficients are rounded when they become tensors, the losses reported by the training step of every model differ from the exact ones by at most ((1+u)^K - 1) times the loss with all terms replaced by absolute values, K = 2 n_quad + n_test + n_cells + n_boundary + 20 (plus n_sensor + 1 for inverse models). For rounding to nearest with p bits (24 for float32, 53 for float64) this is at most 2 K 2^-p times that size. A sum of n numbers is computed with at most n-1 such errors in whatever order it is taken. Rounded losses are not negative.", "quantifier": "every rounding, model, network, coefficients, data; every order of summation", "why_tests_cant": "tests compare single runs within a tolerance chosen by hand", "anchors": ["fastvpinns/model/model.py:238-307", "fastvpinns/model/model_hard.py", "fastvpinns/model/model_inverse.py", "fastvpinns/model/model_inverse_domain.py", "fastvpinns/physics/poisson2d.py", "fastvpinns/physics/cd2d.py", "fastvpinns/physics/helmholtz2d.py", "fastvpinns/data/datahandler2d.py"]}
{"id": "C68", "title": "The total loss is convex in the network's output", "statement": "If a network returns the affine combination (1-t) u1 + t u2 of the values and gradients of two others, its total loss is (1-t) loss(u1) + t loss(u2) - t(1-t) K, where K >= 0 (for beta >= 0) is the loss of the difference u1 - u2 for zero forcing and zero data; this holds for the standard, hard-constraint and both inverse models with the coefficients fixed. For 0 <= t <= 1 the loss is therefore not above the average. The space-dependent inverse loss is convex in the diffusion field too. If two networks have zero loss, so has every affine combination.", "quantifier": "every model, loss function, pair of networks, t, beta", "why_tests_cant": "an identity over all networks and weights; a training run never isolates it", "anchors": ["fastvpinns/model/model.py:238-307", "fastvpinns/model/model_hard.py", "fastvpinns/model/model_inverse.py", "fastvpinns/model/model_inverse_domain.py", "fastvpinns/physics/poisson2d.py", "fastvpinns/physics/cd2d.py", "fastvpinns/physics/helmholtz2d.py", "fastvpinns/physics/poisson2d_inverse.py", "fastvpinns/physics/cd2d_inverse_domain.py"]}
{"id": "C69", "title": "What the loss says about an unknown coefficient", "statement": "In the inverse Poisson model with the network fixed, loss_pde is a parabola in the trainable eps whose leading coefficient A is the mean square of the network's diffusion integrals; if A > 0 the total loss has the single minimiser B/A and grows by A (eps - B/A)^2. If loss_pde is zero at eps0 then it is A (eps - eps0)^2, so it vanishes at another eps only if every diffusion integral of the network is zero. In the space-dependent model, if loss_pde vanishes with field E0 then with field E it is the mean square of the weak diffusion term with coefficient E - E0: the field is determined exactly up to those for which this term is zero.", "quantifier": "every model, network, coefficient, field, beta", "why_tests_cant": "tests run a few epochs and cannot tell whether the recovered value is the only one", "anchors": ["fastvpinns/model/model_inverse.py", "fastvpinns/model/model_inverse_domain.py", "fastvpinns/physics/poisson2d_inverse.py", "fastvpinns/physics/cd2d_inverse_domain.py", "examples/inverse_problems_2d/const_inverse_poisson2d/main_inverse.py"]}
{"id": "C70", "title": "The derivative of the training loss", "statement": "Along any family of networks differentiable in a parameter s (one weight, say; for the inverse models also the coefficient or the field) the total loss is differentiable in s, with derivative 2 <residual, weak form of the derivative of the network and of the coefficient> + 2 beta <boundary error, derivative> (+ 20 <sensor error, derivative> for inverse models), the means taken exactly as in the loss. A network with zero loss is stationary.", "quantifier": "every model, family of networks and coefficients, point s, beta", "why_tests_cant": "automatic differentiation is checked at best at single points", "anchors": ["fastvpinns/model/model.py:238-307", "fastvpinns/model/model_hard.py", "fastvpinns/model/model_inverse.py", "fastvpinns/model/model_inverse_domain.py", "fastvpinns/physics/poisson2d.py", "fastvpinns/physics/cd2d.py", "fastvpinns/physics/helmholtz2d.py", "fastvpinns/physics/poisson2d_inverse.py", "fastvpinns/physics/cd2d_inverse_domain.py"]}
{"id": "C71", "title": "The constant-coefficient inverse script reports losses, parameters and errors of the right training state", "statement": "If main_inverse.py of const_inverse_poisson2d finishes then entry t of loss_function.txt is the training loss of the weights and parameter that step t started from, entry t of inverse_params.txt is the parameter after step t, the printed errors and the stored prediction and error are those of the saved weights, in the order of the test grid, and the test-loss curve has one L1 error for every epoch with a report. The sensors are exact values at points of the mesh's bounding box. With admissible settings, at least two sensors and any number of epochs (none included) the script finishes on an internal mesh. Its branch for mesh files never finishes, because get_sensor_data is called without a file name (refuted).", "quantifier": "every setting, problem, sequence of weights and parameters, sampling, file system", "why_tests_cant": "quantifies over weight histories; scripts are not tested", "anchors": ["examples/inverse_problems_2d/const_inverse_poisson2d/main_inverse.py", "examples/inverse_problems_2d/const_inverse_poisson2d/inverse_uniform.py", "fastvpinns/data/datahandler2d.py", "fastvpinns/model/model_inverse.py"]}
{"id": "C72", "title": "The domain-inverse scripts report solution and parameter of the right training state", "statement": "If main_inverse_domain_circle.py or main_inverse_domain_usa.py finishes then the entries t of loss_function.txt and sensor_loss.txt are the losses of the weights that step t started from; the stored predictions and errors of solution and parameter and the printed errors are those of the saved weights; both test curves have one L1 error per report, and on a mesh file every report leaves its own .vtk file with the six columns of that report while external.vtk and all other files are unchanged. The sensors of the USA script are distinct test points with exact values, those of the circle script rows of the table. The USA script compares its parameter with the coefficient for which its exact solution solves its equation. exact.txt of the circle script is the third column of the table: row k is compared with test point k whatever the row's coordinates. With admissible settings the scripts finish; with no epoch they stop with a NameError.", "quantifier": "every setting, mesh file, table, random choice, sequence of weights, file system", "why_tests_cant": "quantifies over weight histories, random choices and file systems; scripts are not tested", "anchors": ["examples/inverse_problems_2d/domain_inverse_cd2d/circle/main_inverse_domain_circle.py", "examples/inverse_problems_2d/domain_inverse_cd2d/USA/main_inverse_domain_usa.py", "fastvpinns/data/datahandler2d.py", "fastvpinns/model/model_inverse_domain.py", "fastvpinns/Geometry/geometry_2d.py"]}
{"id": "C73", "title": "loss_function.txt holds the discrete weak-form losses of the stated equation", "statement": "If an example script finishes, entry t of its loss_function.txt is: the sum over the cells of the mesh of the mean, over all test functions, of the squared quadrature value of the weak form of the script's equation (- eps laplace u = f for Poisson, with + b . grad u + c u for convection-diffusion, eps laplace u + k^2 u = f for Helmholtz) with the problem's right-hand side and the network of epoch t, plus beta times the mean squared deviation from the boundary function of each boundary point's tag; the script with the hard constraint has no boundary term; the inverse scripts use the parameter (or parameter field) of epoch t in the equation and add ten times the mean squared misfit at the sensors. This holds on every internal mesh and on every mesh file whose elements list the corners of convex quadrilaterals in any order.", "quantifier": "every problem, setting, mesh, quadrature and basis choice, sequence of weights and parameters, epoch", "why_tests_cant": "an end-to-end formula over all weight histories and meshes; scripts are not tested", "anchors": ["examples/forward_problems_2d/uniform_mesh/poisson_2d/main_poisson2d.py", "examples/forward_problems_2d/complex_mesh/cd2d/main_cd2d.py", "examples/forward_problems_2d/hard_boundary_constraints/poisson_2d/main_poisson2d_hard.py", "examples/inverse_problems_2d/const_inverse_poisson2d/main_inverse.py", "examples/inverse_problems_2d/domain_inverse_cd2d/USA/main_inverse_domain_usa.py", "fastvpinns/model/model.py", "fastvpinns/model/model_hard.py", "fastvpinns/FE_2D/fespace2d.py"]}
{"id": "C74", "title": "The training losses are differentiable in the weights, and training never gets stuck on a failure", "statement": "For each of the four models with a shipped loss, a plain network whose activation is twice differentiable (tanh, sin, sigmoid) and any weights (for the hard model: any affine ansatz with differentiable factors, or none; for the inverse model together with the trainable parameters) the total loss, as a function of all trainable variables, is defined everywhere, differentiable along every line, and its directional derivative is the pairing of the direction with the gradient handed to the optimizer; the variables are exactly the entries of all kernels and biases and the inverse parameters, and at its own variables a model has the losses of its training step; hence a training run of any length, with any learning rates, never raises an error and keeps the number of variables.", "quantifier": "every set-up, network shape, weight vector, direction, learning-rate sequence and number of steps", "why_tests_cant": "quantifies over all weights and directions, and over runs of unbounded length", "anchors": ["fastvpinns/model/model.py", "fastvpinns/model/model_hard.py", "fastvpinns/model/model_inverse.py", "fastvpinns/model/model_inverse_domain.py"]}
{"id": "C75", "title": "The first step of training lowers the loss, and solutions are fixed points", "statement": "In the setting of C74, unless the gradient is zero, there is a positive learning rate below which the first training step (Adam with fresh moments) strictly lowers the total loss. If the gradient is zero at the start, training never changes any variable; a single variable whose gradient has been zero at every step so far still has its initial value (for example an inverse parameter the loss does not see). With beta >= 0 a network with total loss zero has zero gradient, so training never leaves it, whatever the learning rates and number of steps.", "quantifier": "every set-up, network, weight vector, learning-rate sequence and number of steps", "why_tests_cant": "the threshold depends on the weights, and the fixed-point claims are about runs of unbounded length", "anchors": ["fastvpinns/model/model.py", "fastvpinns/model/model_hard.py", "fastvpinns/model/model_inverse.py", "fastvpinns/model/model_inverse_domain.py"]}
{"id": "C76", "title": "How far training can move a variable", "statement": "Whatever the loss and its gradients, one training step changes each variable by at most 7.3 times the learning rate of that step; in the inverse model this bounds the change of every trainable parameter between two entries of its history. While the gradient g of a variable has been constant, step t changes it by exactly - lr_t g s / (|g| s + 1e-7) with s = sqrt(1 - 0.999^(t+1)): nearly the learning rate, against the sign of g. With use_lr_scheduler, decay_steps = n >= 1 and 0 <= decay_rate < 1 no variable is ever further than 7.3 lr0 n / (1 - decay_rate) from any earlier value, and all variables converge as the number of steps grows: a coefficient further than that from its initial guess cannot be found.", "quantifier": "every loss function, start, schedule, variable and number of steps", "why_tests_cant": "a worst case over all gradient sequences and an asymptotic statement", "anchors": ["fastvpinns/model/model.py", "fastvpinns/model/model_hard.py", "fastvpinns/model/model_inverse.py", "fastvpinns/model/model_inverse_domain.py"]}
{"id": "C77", "title": "The example scripts train the network they build", "statement": "Start a forward script, or a script for a coefficient on the whole domain, from any initial kernels and biases of the layers it asks for. On valid settings it comes to its end and writes its files, whatever those initial values are. With a twice differentiable activation: if the loss has a nonzero derivative in some kernel or bias entry at the start, then for every small enough initial_learning_rate (with or without scheduler) the second number in loss_function.txt is smaller than the first; if all derivatives are zero, all numbers in it are equal. If the first number is 0, with boundary_loss_tau >= 0, all of them are 0 and the prediction files hold the answers of the initial network.", "quantifier": "every problem, mesh, settings, initial weights, learning-rate dictionary and number of epochs", "why_tests_cant": "whole training runs for all initial weights, and a threshold that holds for all smaller learning rates", "anchors": ["examples/forward_problems_2d", "examples/inverse_problems_2d", "fastvpinns/model/model.py", "fastvpinns/model/model_hard.py", "fastvpinns/model/model_inverse_domain.py"]}
{"id": "C78", "title": "The inverse script and the coefficient it reports", "statement": "The script for an unknown coefficient, started from any initial weights and any guess for eps on an internal mesh with valid settings, comes to its end. Its loss drops in the first step for small learning rates unless all derivatives in the weights and eps are zero; if the first loss is 0, every entry of the written eps history is the guess and the prediction is that of the initial network. Whatever the data, the network and the losses, entry t of the history differs from entry t-1 (entry 0 from the guess) by at most 7.3 times the learning rate of that epoch, and with use_lr_scheduler, decay_steps = n >= 1 and 0 <= decay_rate < 1 every entry stays within 7.3 |lr0| n / (1 - decay_rate) of the guess.", "quantifier": "every problem, guess, initial weights, sensors, learning-rate dictionary and number of epochs", "why_tests_cant": "a bound over all runs of any length, and whole training runs for all initial weights", "anchors": ["examples/inverse_problems_2d/const_inverse_poisson2d/main_inverse.py", "fastvpinns/model/model_inverse.py"]}
{"id": "C79", "title": "Each setting comes from its own entry of the input file", "statement": "A script starts exactly when every entry it names is present in the input file (at its place in the nesting, with a usable kind of value, and dtype float32 or float64), and then each of its settings is the value of that entry: n_cells_x of n_cells_x, quad_order of quad_order, x_min of x_min and so on. A missing entry ends the script; entries it does not name have no influence. Forward scripts also want generate_mesh_plot and (except the one with hard constraints) exact_solution; inverse scripts want num_sensor_points and, on the circle, sensor_data_file.", "quantifier": "every input file, every script", "why_tests_cant": "all nestings, orders and omissions of some thirty entries", "anchors": ["examples/forward_problems_2d", "examples/inverse_problems_2d"]}
{"id": "C80", "title": "The gear script compares with the third column of its csv file, row by row", "statement": "With exact_solution_generation other than 'internal' the script cd2d_gear takes the third column of the csv file as exact solution: the errors it reports, the stored exact solution and the Exact column of the .vtk files are that column, in file order, against the predictions at the test points in mesh order. For networks with one output the run fails unless the file has as many rows as there are test points. With 'internal' it uses the problem's exact_solution. The coordinates in the first two columns have no influence: the intended reading, that a value belongs to its point, fails as soon as the rows are in another order (refuted). Its training is that of C77: small learning rates lower the loss in the first step, and a network with loss 0 is kept.", "quantifier": "every csv file, mesh, settings and sequence of weights", "why_tests_cant": "all files and all lengths; the mismatch is silent", "anchors": ["examples/forward_problems_2d/complex_mesh/cd2d_gear/main_gear_cd2d.py"]}
{"id": "C81", "title": "The shipped input files run to the end", "statement": "For each example directory, its script on its own input file and problem file reads all settings and comes to its end with all files written, from any initial weights of the layers the file asks for, on any mesh file with at least one quadrilateral and boundary edges that carry the references the problem knows (1000; 1000 and 1001 for the gear) and any test mesh with at least one point. The gear script does so exactly when its csv file has as many rows as there are test points; the circle inverse script needs a csv file of that length too.", "quantifier": "all eleven shipped input files, every initial network, mesh file, sampler and quadrature rule", "why_tests_cant": "thousands of epochs for every initial network and every mesh", "anchors": ["examples/forward_problems_2d", "examples/inverse_problems_2d"]}
{"id": "C82", "title": "The hyperparameter search returns a best trial", "statement": "OptunaTuner.run with at least one GPU and a study of valid suggestions comes to its end and returns the parameters of a trial whose value is not above that of any finished trial, among the trials the database already holds and the new ones; trials with value nan are left out. The value of a trial is the relative L2 error, on the 100 x 100 grid of the unit square, of the suggested network after n_epochs Adam steps with rate lr * decay_rate^floor(t / decay_steps) on the Poisson loss of the suggested mesh and space. The returned dictionary determines mesh, space, network and optimizer of the trial. False are: the result belongs to the present run or problem (a database entry with value 0 is always returned), and the result fits an exact solution that vanishes on the grid (the first trial with a non-zero prediction wins). Without GPU, or without any finished trial, run raises.", "quantifier": "all draws of the sampler, initial networks, contents of the database, numbers of epochs, devices and jobs", "why_tests_cant": "a study trains up to hundreds of networks for thousands of epochs on GPUs; a test would use one seed and a fresh database", "anchors": ["fastvpinns/hyperparameter_tuning/optuna_tuner.py", "fastvpinns/hyperparameter_tuning/objective.py"]}
{"id": "C83", "title": "Freshly built networks", "statement": "The constructor of a model with at least one Dense layer, two inputs and positive widths gives a network with the listed widths, zero biases and kernel entries of absolute value at most sqrt(6 / (inputs + units)) of their layer; such networks are what C77, C78 and (for tanh and suggested widths) C82 start from. With an odd activation (tanh) and no attention, every freshly built network is an odd function of the point, whatever was drawn: model([-p]) = -model([p]), and every output is 0 at the origin. In the model for a coefficient field the initial diffusion coefficient is therefore odd: wherever it is positive, it is negative at the mirrored point, and zero at the origin, so it is never positive on a domain that contains a point together with its mirror image.", "quantifier": "all random draws, layer sizes, points and odd activations", "why_tests_cant": "a test sees a few seeds and points; the symmetry holds for every draw and follows from zero biases and linear last layers", "anchors": ["fastvpinns/model/model.py", "fastvpinns/model/model_hard.py", "fastvpinns/model/model_inverse.py", "fastvpinns/model/model_inverse_domain.py"]}
{"id": "C84", "title": "The printed maximum error controls the error between the test points", "statement": "In the forward scripts on the rectangle, with at least two test points in each direction, let a be the printed L_inf error. If the saved network changes by at most K times the distance (maximum norm) and the exact solution by at most L times, then at every point of the rectangle, not only at test points, the network is off by at most a + (K + L) * h / 2, h the larger spacing of the test grid. A network with an activation that does not increase distances (tanh) has K at most the product over the layers of the largest sum of absolute weights into a unit. For the soft-boundary scripts K is known before training: a freshly built network after t training steps has K at most the product over the layers of n * (sqrt(6 / (n + u)) + 7.3 * sum of |learning rate| over the steps), n inputs and u units, whatever was drawn and whatever the loss.", "quantifier": "all problems, settings, draws, losses, numbers of steps and points of the rectangle", "why_tests_cant": "the error between the test points is never computed; a test would sample finitely many more points of one trained network", "anchors": ["examples/forward_problems_2d/uniform_mesh/poisson_2d/main_poisson2d.py", "fastvpinns/utils/compute_utils.py", "fastvpinns/Geometry/geometry_2d.py", "fastvpinns/model/model.py"]}
{"id": "C85", "title": "The residual and the printed loss bound the error on the whole rectangle", "statement": "Let a script with a soft boundary term run on the internal mesh with a latin hypercube boundary sampler, for Poisson, convection-diffusion with a non-negative reaction coefficient, or Helmholtz below its first resonance, and let the boundary functions be values of the exact solution. Take any line t of loss_function.txt. If the network of step t leaves a strong residual of at most rs on the rectangle, then at every point of the rectangle, not only at the test points, it differs from exact_solution by at most top * max( sqrt(4k * loss_t / beta) + (K + L) * side / k, rs / rho ). Here k is a quarter of the number of boundary points, K and L bound the steepness of the network and of the exact solution, and top, rho are explicit numbers of the equation and the rectangle. For the shipped Poisson script on the unit square top = e and rho = 1 and L = 8 pi, for the shipped Helmholtz script top = 1/cos 1, rho = 3 and L = 2 + 4 pi. A tanh network of any size is twice continuously differentiable, so K and rs are finite. If the loss is zero for every number of test functions and the boundary misfit is zero for every number of boundary points, the network equals the exact solution on the rectangle. For the shipped script with hard constraints the network is zero on the rim for all weights and differs from exact_solution by at most e * rs on the unit square.", "quantifier": "all settings, problems, networks, weights, epochs and points of the rectangle", "why_tests_cant": "A test compares the prediction with the exact solution at finitely many points. The statement is about every point of the rectangle, every network and every equation of the class.", "anchors": ["examples/forward_problems_2d/uniform_mesh/poisson_2d/main_poisson2d.py:215-240", "examples/forward_problems_2d/uniform_mesh/helmholtz_2d/main_helmholtz.py", "fastvpinns/Geometry/geometry_2d.py:generate_quad_mesh_internal", "fastvpinns/model/model.py:DenseModel.train_step"]}
{"id": "C86", "title": "Rounding errors inside the network and of the whole training step are bounded", "statement": "Let every operation inside the Keras layers and on the gradient tape have relative error at most u (sums in any order, tanh to within mt roundings, input points rounded when they become tensors). Then every output of a tanh network, and both partial derivatives of an output or of the sum of outputs at every point, differ from the exact ones by at most ((1+u)^k - 1) times the same expression with absolute values in it; k is an explicit number that depends on the layer widths only, 97+3mt and 310+12mt for the layers 2-30-30-30-1 of the shipped scripts. The losses reported by train_step of the standard, inverse and inverse-domain models differ from the exact ones by at most ((1+u)^K - 1) times their size, K = 2 n_quad + 4k + n_test + n_cells + n_boundary + 20 (+ n_sensor + 1); for p bits this is at most 2K 2^-p times the size. The same holds for the network multiplied by the ansatz of the shipped script with hard constraints (4.0 * np.pi in the working precision), its gradient and its loss. With exact operations the backward pass gives the partial derivatives of the network.", "quantifier": "every arithmetic with relative error u, layer widths, weights, evaluation point, model data, coefficients; precision p", "why_tests_cant": "a test sees one network and one machine; it cannot bound the error for all weights, orders of summation and precisions", "anchors": ["fastvpinns/model/model.py:151-171", "fastvpinns/model/model.py:187-206", "fastvpinns/model/model.py:238-307", "fastvpinns/model/model_inverse.py", "fastvpinns/model/model_inverse_domain.py:268-279", "fastvpinns/data/datahandler2d.py:89-91", "fastvpinns/model/model_hard.py", "examples/forward_problems_2d/hard_boundary_constraints/poisson_2d/main_poisson2d_hard.py:153-170"]}
{"id": "C87", "title": "The loss and the predictions of the working precision bound the distance to the exact solution", "statement": "For the forward scripts on the internal mesh with a soft boundary, a tanh network and any arithmetic with relative error u, the values that the network returns in that arithmetic differ from the exact solution, at every point of the rectangle, by at most top * max(sqrt(4k (printed + slack)/beta) + (K + L) side/k, rs/rho) plus a rounding term of the network. Here printed is the loss computed in that arithmetic, slack its rounding bound, k the number of boundary points on a side, K and L the steepness of network and solution, rs the residual of the network. For the shipped Poisson script and p bits the rounding term is 200 * 2^-p times the size of the network and slack is 2 ops 2^-p times the size of the loss, ops = 2 n_quad + n_test + n_cells + 4k + 1308. For the script with hard constraints the error is at most e * rs plus the rounding term, without any loss.", "quantifier": "every forward script and problem with matching boundary data, arithmetic, mesh size, space, training step, weights, point of the rectangle", "why_tests_cant": "a test compares predictions at finitely many points for one training run; the bound holds for all weights, points and precisions", "anchors": ["examples/forward_problems_2d/uniform_mesh/poisson_2d/main_poisson2d.py:205-260", "examples/forward_problems_2d/hard_boundary_constraints/poisson_2d/main_poisson2d_hard.py", "fastvpinns/model/model.py:187-322", "fastvpinns/model/model_hard.py"]}
{"id": "C88", "title": "What the two scripts for a space-dependent coefficient ask for: sign and uniqueness of the field", "statement": "The actual coefficient of the circle script is positive on the disc x^2 + y^2 <= 1.001, which contains circle_quad.mesh. The one of the USA script, evaluated by get_inverse_params_actual_dict, is not: on the square [-1,1]^2, which contains usa.mesh, it has the sign of x, so it is negative on the western half of the map and its equation is not elliptic there. Whenever a differentiable field solves the equation together with a function u, the variational loss of (u, field) is 0 on every convex mesh, in every space and for every number of test functions; adding a multiple of a field h with div(h grad u) = 0 keeps this. For the USA script such an h is exp(-9.9 y) (positive everywhere): for every M there is a field that is at least M above the actual one at every point with y <= 1, solves the same equation with the same exact solution, and has loss 0. So sensor data without noise at every point of the map do not determine the coefficient that the script compares with.", "quantifier": "every point of disc and square, every real M, every mesh of convex cells, transformation, test family except the plain Jacobi one, number of test functions", "why_tests_cant": "a test compares one trained field with the actual one; non-uniqueness and sign are statements about all fields and all points", "anchors": ["examples/inverse_problems_2d/domain_inverse_cd2d/USA/cd2d_inverse_usa_example.py:9-83", "examples/inverse_problems_2d/domain_inverse_cd2d/circle/cd2d_inverse_circle_example.py:9-71", "examples/inverse_problems_2d/domain_inverse_cd2d/USA/main_inverse_domain_usa.py", "fastvpinns/physics/cd2d_inverse_domain.py:15-90"]}
{"id": "C89", "title": "Adam in the working precision: steps are bounded, moments stay valid, and small learning rates leave variables exactly unchanged", "statement": "Run the optimizer with every operation rounded (relative error u <= 1e-6, in particular IEEE single or double precision), from any variables and for any sequence of gradients, however they were computed. Then the second moment of every variable is never negative (its square root exists) and the first moment is at most sqrt(54) times that root; one step changes a variable x by at most 7.5 times the learning rate plus u|x|; after t steps it has moved by at most ((1+u)^t - 1)|x_0| + (1+u)^t * 7.5 * (sum of the rates); a variable whose gradient is always 0 keeps its value exactly. In p-bit arithmetic (p >= 24) a variable x is frozen from epoch t on, bit for bit and whatever the gradients, when 8 times every later learning rate is at most 2^-(p+2)|x|. With use_lr_scheduler and a decay rate below 1 there is therefore, for every a > 0, an epoch from which on no variable of size a or more changes again, independent of problem, gradients and start values, although exact arithmetic would go on moving it.", "quantifier": "every sequence of gradients, learning rates, start values, step, variable, arithmetic with small relative error", "why_tests_cant": "a test sees one training run of finite length; the bounds hold for all gradients, precisions and numbers of steps", "anchors": ["fastvpinns/model/model.py:144", "fastvpinns/model/model.py:303-305", "fastvpinns/model/model_hard.py:165", "fastvpinns/model/model_hard.py:326-328", "fastvpinns/model/model_inverse.py:156", "fastvpinns/model/model_inverse.py:328-330", "fastvpinns/model/model_inverse_domain.py:141", "fastvpinns/model/model_inverse_domain.py:333-335"]}
{"id": "C90", "title": "The test functions of the chebyshev_2 family are products of sines; the Jacobi polynomials satisfy their differential equation", "statement": "The quotient jacobi(n,-1/2,-1/2)(x)/jacobi(n,-1/2,-1/2)(1) used by the chebyshev_2 family equals cos(n t) at x = cos t, for every degree n and real t. Hence row k*i+j of its value table at a point (cos s, cos t) is 4 sin((i+1)s) sin(s) sin((j+1)t) sin(t); every entry on the reference square is bounded by 4 sqrt(1-x^2) sqrt(1-y^2), at every order; and the n-th one-dimensional test function vanishes at cos(j pi/n) for every j. The polynomials jacobi(n,a,b) of which all families are made satisfy (1-x^2)y'' + (b-a-(a+b+2)x)y' + n(n+a+b+1)y = 0 for all real parameters, degrees and x.", "quantifier": "every order, test function, point list, point, degree and real parameters", "why_tests_cant": "a test evaluates finitely many degrees at finitely many points in floating point; these are identities for all degrees and points", "anchors": ["fastvpinns/FE/basis_2d_QN_Chebyshev_2.py:50-95"]}
