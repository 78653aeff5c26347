{"id": "C01", "title": "Objective registry matches the cost functions present", "statement": "After any sequence of add()/erase() calls in which no cost function is added while already present, a variable name is reported by has_optim_var (has_aux_var) exactly when some cost function currently in the objective registers it as an optimization variable (a cost function or its weight registers it as auxiliary), and get_functions_connected_to_optim_var / _aux_var lists exactly the functions that use it, with multiplicity.", "quantifier": "every finite history of add/erase calls over arbitrary cost functions, weights and shared variables", "why_tests_cant": "the bookkeeping must hold after every interleaving of adds and erases with arbitrarily shared variables and weights; tests try a few short histories", "anchors": ["theseus/core/objective.py:Objective.add", "theseus/core/objective.py:Objective.erase", "theseus/core/objective.py:Objective._add_function_variables", "theseus/core/objective.py:Objective._erase_function_variables", "theseus/core/objective.py:Objective.get_functions_connected_to_optim_var"]}
{"id": "C02", "title": "Re-adding a cost function has no effect", "statement": "Adding a cost function object that is already in the objective changes nothing except the version counter (the code warns 'nothing to be done'), so a later erase() of it removes every variable only it used.", "quantifier": "every objective state and every cost function already in it", "why_tests_cant": "needs every history containing a duplicate add followed by arbitrary later operations", "anchors": ["theseus/core/objective.py:Objective.add", "theseus/core/objective.py:Objective.erase"]}
{"id": "C03", "title": "One variable object per name", "statement": "At every point of every history, including after add() calls that raise, the objective never holds two different variable objects under one name: the optimization, auxiliary and cost-weight containers agree on which object a name denotes.", "quantifier": "every history of add/erase calls, successful or raising", "why_tests_cant": "failing calls leave intermediate states that tests do not enumerate", "anchors": ["theseus/core/objective.py:Objective._add_function_variables", "theseus/core/objective.py:Objective.add"]}
{"id": "C04", "title": "A stale optimizer or layer never runs", "statement": "The objective's version strictly increases on every add() that gets past the cost-function name check and on every erase(), and optimize() / TheseusLayer.forward() raise whenever the version differs from the one recorded at construction; hence after any structural change the optimizer refuses to run.", "quantifier": "every history between constructing the optimizer and calling it", "why_tests_cant": "quantifies over every history of modifications", "anchors": ["theseus/core/objective.py:Objective.current_version", "theseus/optimizer/optimizer.py:Optimizer.optimize", "theseus/theseus_layer.py:TheseusLayer.forward"]}
{"id": "C05", "title": "Batch size resolution", "statement": "update() succeeds in resolving a batch size exactly when all optimization and auxiliary variables have batch dimension 1 or one common value; the resulting batch_size is that common value (1 if all are 1), independent of variable order; otherwise it raises ValueError.", "quantifier": "every number of variables and every list of batch dimensions", "why_tests_cant": "ranges over all lists of batch sizes and orders", "anchors": ["theseus/core/objective.py:Objective._resolve_batch_size", "theseus/core/objective.py:Objective.update"]}
{"id": "C06", "title": "update() touches exactly what it should", "statement": "Variable.update / Objective.update replace exactly the named variables; with batch_ignore_mask, masked batch rows keep their old values bit for bit and unmasked rows take the new ones; every variable not named is unchanged; a rejected tensor (wrong trailing shape, dtype) leaves the variable unchanged.", "quantifier": "every tensor, mask, batch size and dictionary of inputs", "why_tests_cant": "all masks, sizes and dictionaries", "anchors": ["theseus/core/variable.py:Variable.update", "theseus/core/objective.py:Objective.update"]}
{"id": "C07", "title": "error(..., also_update=False) is side-effect free on tensors", "statement": "Evaluating error()/error_metric() with input tensors and also_update=False leaves every variable registered in the objective with the tensor it had before the call.", "quantifier": "every objective, every dictionary of input tensors", "why_tests_cant": "every subset of variables (optimization, auxiliary, weight) that may be passed", "anchors": ["theseus/core/objective.py:Objective.error", "theseus/core/objective.py:Objective.error_metric"]}
{"id": "C08", "title": "Order and content of the error vector", "statement": "error() returns the concatenation of the weighted errors of all cost functions in the order in which they were added; its length is dim(); error_metric() is half its squared norm. This holds whether or not vectorization is on.", "quantifier": "every objective and every mix of cost-function types", "why_tests_cant": "vectorization regroups by type: needs every interleaving of types", "anchors": ["theseus/core/objective.py:Objective.error", "theseus/core/objective.py:Objective.dim", "theseus/core/vectorizer.py:Vectorize._vectorize"]}
{"id": "C09", "title": "Objective.copy() is an independent isomorphic copy", "statement": "copy() returns an objective with the same cost-function names, variable names, connectivity and values, none of whose variables is an object of the original, and updating a variable of the copy affects exactly the errors of the copied cost functions that use it.", "quantifier": "every objective reachable by add/erase", "why_tests_cant": "needs every pattern of variable sharing between cost functions, wrapped (robust) cost functions and weights", "anchors": ["theseus/core/objective.py:Objective.copy", "theseus/core/theseus_function.py:TheseusFunction.copy", "theseus/core/theseus_function.py:TheseusFunction._set_variable_at", "theseus/core/robust_cost_function.py:RobustCostFunction"]}
{"id": "C10", "title": "VariableOrdering stays consistent", "statement": "For every history of append/extend/remove, index_of(v.name) is the position of v, positions are distinct, and complete is true exactly when the order is a permutation of the objective's optimization variables.", "quantifier": "every history of append/extend/remove", "why_tests_cant": "all histories, including removals in the middle", "anchors": ["theseus/optimizer/variable_ordering.py:VariableOrdering"]}
{"id": "C11", "title": "Vectorization does not change errors or Jacobians", "statement": "With vectorization on, each cost function's served weighted error and Jacobians equal what the cost function computes on its own variables broadcast to the objective's batch size, for every grouping by schema and every pattern of shared and batch-1 variables.", "quantifier": "every list of cost functions, schema grouping, sharing pattern and batch size", "why_tests_cant": "all sharing/broadcast patterns and group sizes", "anchors": ["theseus/core/vectorizer.py:Vectorize._update_all_cost_fns_var_tensors", "theseus/core/vectorizer.py:Vectorize._update_vectorized_vars", "theseus/core/vectorizer.py:Vectorize._compute_error_and_replace_wrapper_caches", "theseus/core/vectorizer.py:Vectorize._get_var_names"]}
{"id": "C12", "title": "Masking zero weights does not change results", "statement": "Evaluating Jacobians only on batch rows with non-zero weight and filling the rest with zeros gives the same weighted Jacobians and error as evaluating all rows, and the variables hold their original tensors afterwards.", "quantifier": "every batch, mask and row-wise cost function", "why_tests_cant": "every mask and weight pattern", "anchors": ["theseus/core/cost_function.py:masked_jacobians", "theseus/core/variable.py:masked_variables", "theseus/core/cost_weight.py"]}
{"id": "C13", "title": "Vectorized Jacobians are never stale", "statement": "Jacobians served to the linearization always reflect the current variable tensors, for every history of update(), error evaluation, retraction, to() and item assignment.", "quantifier": "every history of variable modifications and queries", "why_tests_cant": "stale caches appear only in particular histories", "anchors": ["theseus/core/objective.py:Objective._vectorization_needs_update", "theseus/core/objective.py:Objective.update_vectorization_if_needed", "theseus/core/objective.py:Objective._get_jacobians_iter", "theseus/core/variable.py:Variable.__setitem__"]}
{"id": "C14", "title": "Vectorized retraction equals sequential retraction", "statement": "Retracting all variables in one vectorized call gives each variable the same value as retracting it alone with its slice of delta, and rows under the ignore mask are unchanged.", "quantifier": "every ordering, mix of variable types, batch size, delta and mask", "why_tests_cant": "all orderings and type groupings", "anchors": ["theseus/core/vectorizer.py:Vectorize._vectorized_retract_optim_vars", "theseus/core/objective.py:Objective._retract_base"]}
{"id": "C15", "title": "The optimization loop terminates with a bounded number of linear solves", "statement": "Whatever the solver, the cost functions and the accept/reject decisions do, the loop executes at most 3*num_iter step computations and at most num_iter recorded iterations, and returns iters_done <= num_iter.", "quantifier": "every behaviour of the step/accept oracle", "why_tests_cant": "adversarial sequences of rejected steps", "anchors": ["theseus/optimizer/nonlinear/nonlinear_least_squares.py:NonlinearLeastSquares._optimize_loop", "theseus/optimizer/nonlinear/nonlinear_optimizer.py:NonlinearOptimizer._MAX_ALL_REJECT_ATTEMPTS"]}
{"id": "C16", "title": "Final status and converged_iter are meaningful", "statement": "After optimize() in unroll mode every batch element has status CONVERGED, MAX_ITERATIONS or (for all elements at once) FAIL, never START; converged_iter is -1 exactly for MAX_ITERATIONS elements, and for a CONVERGED element counts the iterations up to the one at which it was first flagged converged.", "quantifier": "every run of the loop, every batch size", "why_tests_cant": "every sequence of errors and convergence patterns", "anchors": ["theseus/optimizer/nonlinear/nonlinear_least_squares.py:NonlinearLeastSquares._optimize_impl", "theseus/optimizer/nonlinear/nonlinear_optimizer.py:NonlinearOptimizer._update_info", "theseus/optimizer/nonlinear/nonlinear_optimizer.py:NonlinearOptimizer._check_convergence"]}
{"id": "C17", "title": "Converged batch elements are frozen", "statement": "Once a batch element is flagged converged its variables do not change in later iterations of that loop, and it stays flagged.", "quantifier": "every run, batch size and per-element history, for abs_err_tolerance > 0 (the default is 1e-10)", "why_tests_cant": "needs all later iterations and all interactions between batch elements", "anchors": ["theseus/optimizer/nonlinear/nonlinear_least_squares.py:NonlinearLeastSquares._optimize_loop", "theseus/optimizer/nonlinear/nonlinear_least_squares.py:NonlinearLeastSquares._step"]}
{"id": "C18", "title": "best_solution is the best iterate seen", "statement": "With track_best_solution, best_err is at every iteration the minimum of the error history and best_solution holds, per batch element, the variable values of an iterate attaining it; best_iter identifies that iterate.", "quantifier": "every run of the loop, every batch size", "why_tests_cant": "all error histories including rejections and ties", "anchors": ["theseus/optimizer/nonlinear/nonlinear_optimizer.py:NonlinearOptimizer._update_info", "theseus/optimizer/nonlinear/nonlinear_optimizer.py:NonlinearOptimizer._init_info", "theseus/optimizer/nonlinear/nonlinear_optimizer.py:NonlinearOptimizer._merge_infos"]}
{"id": "C19", "title": "Merged info of the two-loop backward modes is the concatenated history", "statement": "For implicit and truncated modes the returned err_history is the concatenation of the errors of all iterates visited in both loops, and best_err/best_iter/last_err agree with it.", "quantifier": "every pair of loop runs, including early convergence in either", "why_tests_cant": "depends on when each loop converges", "anchors": ["theseus/optimizer/nonlinear/nonlinear_optimizer.py:NonlinearOptimizer._merge_infos", "theseus/optimizer/nonlinear/nonlinear_least_squares.py:NonlinearLeastSquares._optimize_impl"]}
{"id": "C20", "title": "Iteration budget split", "statement": "For every backward mode the gradient and no-gradient iteration counts add up to max_iterations and are non-negative; truncated uses min(backward_num_iterations, max_iterations), implicit one.", "quantifier": "every max_iterations >= 1 and backward_num_iterations >= 0", "why_tests_cant": "all values including 0 and values above the maximum", "anchors": ["theseus/optimizer/nonlinear/nonlinear_optimizer.py:NonlinearOptimizer._split_backward_iters"]}
{"id": "C21", "title": "Adaptive damping stays in its range", "statement": "After every adaptive Levenberg-Marquardt step every batch element's damping lies in [1e-7, 1e7]; it grows on rejection and shrinks on acceptance except at the clamp.", "quantifier": "every sequence of steps", "why_tests_cant": "arbitrary long histories", "anchors": ["theseus/optimizer/nonlinear/levenberg_marquardt.py:LevenbergMarquardt._check_accept"]}
{"id": "C22", "title": "Accepted adaptive steps decrease the error", "statement": "With adaptive damping (LM) or trust region, if the linear solve is exact then a step that is applied to a batch element does not increase (LM: strictly decreases) that element's error, so the recorded error history is non-increasing per element.", "quantifier": "every problem, batch element and step whose errors are not nan (infinite errors included)", "why_tests_cant": "all numerical situations including degenerate and non-finite ones", "anchors": ["theseus/optimizer/nonlinear/levenberg_marquardt.py:LevenbergMarquardt._check_accept", "theseus/optimizer/nonlinear/trust_region.py:TrustRegion._complete_step"]}
{"id": "C23", "title": "Trust region radius update", "statement": "The radius is multiplied by shrink_ratio exactly when rho < shrink_threshold, by expand_ratio exactly when rho > expand_threshold, never both, then clamped to [min,max]; invalid parameter combinations are rejected; the step is applied iff rho is greater than accept_threshold.", "quantifier": "every rho, radius and parameter setting", "why_tests_cant": "all parameter combinations and boundary values", "anchors": ["theseus/optimizer/nonlinear/trust_region.py:TrustRegion._complete_step"]}
{"id": "C24", "title": "Dogleg steps stay inside the trust region", "statement": "The dogleg step never has norm larger than the trust region radius, and equals the Gauss-Newton step when that step is strictly inside the region for the whole batch.", "quantifier": "every Gauss-Newton step, gradient, radius and dimension", "why_tests_cant": "continuous domain; the violation needs small radii", "anchors": ["theseus/optimizer/nonlinear/dogleg.py:Dogleg._compute_delta_impl"]}
{"id": "C25", "title": "LU factorization contexts are not silently reused", "statement": "For the CUDA LU solver with K contexts, the backward of a solve raises exactly when K or more later solves used the same context set; with the automatically chosen number of contexts no backward of one optimize() call raises.", "quantifier": "every sequence of solves/resets/backwards and every K", "why_tests_cant": "all histories of solves and resets", "anchors": ["theseus/optimizer/linear/lu_cuda_sparse_solver.py:LUCudaSparseSolver", "theseus/optimizer/autograd/lu_cuda_sparse_autograd.py", "theseus/extlib/cusolver_lu_solver.cpp", "theseus/optimizer/nonlinear/nonlinear_least_squares.py:NonlinearLeastSquares.reset"]}
{"id": "C26", "title": "Dense and sparse linearization represent the same Jacobian", "statement": "For every objective and ordering, the dense matrix A has each cost function's Jacobian block at its rows and at its variable's columns and zeros elsewhere, b is the negated error, and the sparse (CSR) linearization represents the same matrix and vector; the CSR structure is well formed.", "quantifier": "every objective, ordering, block sizes and Jacobian values", "why_tests_cant": "all structures of shared variables and orderings", "anchors": ["theseus/optimizer/dense_linearization.py", "theseus/optimizer/sparse_linearization.py", "theseus/optimizer/linearization.py"]}
{"id": "C27", "title": "Linearization products", "statement": "Atb, Av and diagonal_scaling of the sparse linearization equal those of the dense one: A^T b, A v, diag(A^T A) v.", "quantifier": "every objective and vector", "why_tests_cant": "all sparsity patterns", "anchors": ["theseus/optimizer/sparse_linearization.py", "theseus/utils/sparse_matrix_utils.py"]}
{"id": "C28", "title": "Damping means the same in all solvers", "statement": "For every matrix, damping (scalar or per batch), ellipsoidal flag and eps, the damped normal matrix used by the dense solvers equals the one produced by the alpha/beta damping of the sparse solvers, and differs from A^T A only on the diagonal.", "quantifier": "every size, batch, damping", "why_tests_cant": "all damping values and shapes", "anchors": ["theseus/optimizer/linear/dense_solver.py:DenseSolver._apply_damping", "theseus/optimizer/linear/utils.py", "theseus/extlib/mat_mult.cu", "theseus/extlib/baspacho_solver.cpp"]}
{"id": "C29", "title": "Backward of the sparse solve is the exact adjoint", "statement": "The gradients returned by the sparse solve's backward are the exact derivatives: for every perturbation (A',b') with A's sparsity and the induced x', <grad_output,x'> = <A_grad,A'> + <b_grad,b'>, with damping, and with detached Hessian for the system with A^T A held constant.", "quantifier": "every sparsity structure, size, A, b, non-negative multiplicative damping (any additive damping) and perturbation", "why_tests_cant": "infinitely many directions and structures", "anchors": ["theseus/optimizer/autograd/common.py:compute_A_grad", "theseus/optimizer/autograd/cholmod_sparse_autograd.py", "theseus/optimizer/autograd/lu_cuda_sparse_autograd.py", "theseus/optimizer/autograd/baspacho_sparse_autograd.py"]}
{"id": "C30", "title": "Backward of sparse matrix-vector products is the exact adjoint", "statement": "sparse_mv and sparse_mtv compute A v and A^T v and their backward functions return the adjoint with respect to the values and the vector.", "quantifier": "every CSR structure and vectors", "why_tests_cant": "all CSR structures", "anchors": ["theseus/utils/sparse_matrix_utils.py:_sparse_mat_vec_bwd_backend"]}
{"id": "C31", "title": "Robust cost value", "statement": "For a robust cost function with loss rho, the squared norm of weighted_error() is rho(||w e||^2) (up to the documented epsilon), with flatten_dims the sum over dimensions of rho of each squared entry, and the returned shape is the wrapped cost's dimension.", "quantifier": "every error vector, dimension, radius and loss", "why_tests_cant": "continuous domain", "anchors": ["theseus/core/robust_cost_function.py:RobustCostFunction.weighted_error"]}
{"id": "C32", "title": "Robust gradient", "statement": "J_r^T e_r from weighted_jacobians_error() equals rho'(||w e||^2) J^T e (up to the documented epsilon), the gradient of half the robust cost.", "quantifier": "every error, Jacobian, radius and loss", "why_tests_cant": "continuous domain", "anchors": ["theseus/core/robust_cost_function.py:RobustCostFunction.weighted_jacobians_error", "theseus/core/robust_loss.py"]}
{"id": "C33", "title": "Robust losses are what they claim", "statement": "Up to the documented epsilon (1e-20; its square root for Huber's linearize): evaluate is the loss's formula and linearize its derivative (also at the Huber kink; not at the hinge kink); the loss is non-negative, 0 at 0, monotone, never exceeds the plain squared error (Welsch, Huber, Geman-McClure), and Huber equals the squared error exactly inside the radius.", "quantifier": "every x >= 0 and radius", "why_tests_cant": "continuous domain", "anchors": ["theseus/core/robust_loss.py"]}
{"id": "C34", "title": "Planar groups obey the group laws", "statement": "SO2 and SE2 compose/inverse/between satisfy the group axioms, compose preserves validity, compose corresponds to matrix multiplication of to_matrix, adjoint is conjugation, transform_from/transform_to are inverse and are the action of to_matrix, and retract/local are mutually inverse for relative rotations other than the half turn (exactly outside the small-angle branch, with translation error at most theta^4 |u| inside it).", "quantifier": "all group elements", "why_tests_cant": "continuous domain", "anchors": ["theseus/geometry/so2.py", "theseus/geometry/se2.py", "theseus/geometry/lie_group.py"]}
{"id": "C35", "title": "Planar exp and log maps", "statement": "exp_map always returns a valid element and is the matrix exponential (exactly outside the small-angle branch, within theta^4/120 |u| inside), log_map inverts exp_map and exp_map inverts log_map for all angles in (-pi,pi], and the returned Jacobians are the derivatives.", "quantifier": "all tangent vectors and group elements", "why_tests_cant": "continuous domain with a series/closed form switch", "anchors": ["theseus/geometry/se2.py:SE2.exp_map", "theseus/geometry/se2.py:SE2._log_map_impl", "theseus/geometry/so2.py"]}
{"id": "C36", "title": "SO3 exponential, logarithm and group laws", "statement": "SO3.exp of any tangent vector is a rotation matrix and is the matrix exponential of its hat (up to a bound cubic in the angle in the near-zero branch); compose and inverse satisfy the group laws and preserve rotations, hat and vee are inverse, the adjoint is a homomorphism, transform and untransform are inverse; SO3.log of any rotation is defined and is the tangent vector of angle at most pi whose exponential is that rotation, and log(exp w) = w for angles below pi.", "quantifier": "all tangent vectors, all rotation matrices, all points", "why_tests_cant": "continuous domain with four branches (near zero, middle, near pi with three choices of the major axis); random tests miss the measure-zero boundaries", "anchors": ["torchlie/torchlie/functional/so3_impl.py", "theseus/geometry/so3.py"]}
{"id": "C37", "title": "SE3 maps", "statement": "SE3 compose/inverse satisfy the group laws and preserve validity, adjoint is a homomorphism, exp returns a rigid motion, transform/untransform are inverse.", "quantifier": "all rigid motions and twists", "why_tests_cant": "continuous domain", "anchors": ["torchlie/torchlie/functional/se3_impl.py", "theseus/geometry/se3.py"]}
{"id": "C38", "title": "Normalization yields valid elements", "statement": "normalize() returns a valid group element for every input tensor, and leaves valid ones unchanged.", "quantifier": "all input tensors", "why_tests_cant": "continuous domain, includes near-zero input", "anchors": ["theseus/geometry/so2.py:SO2.normalize", "theseus/geometry/se2.py:SE2.normalize"]}
{"id": "C39", "title": "Lie group check contexts are restored", "statement": "After leaving a no_lie_group_check / enable_lie_group_check / silence_internal_warnings block, normally or by an exception, the check settings are those in force before entering it.", "quantifier": "every nesting of contexts and every exception point", "why_tests_cant": "exception at any point of any nesting", "anchors": ["theseus/geometry/lie_group_check.py", "theseus/optimizer/optimizer.py:Optimizer.optimize"]}
{"id": "C40", "title": "In-place ops on LieGroupTensor terminate", "statement": "LieGroupTensor.add_ behaves like the plain tensor add_ outside a lie-tangent context and retracts along the projected update inside it.", "quantifier": "every tensor and context", "why_tests_cant": "termination claim", "anchors": ["theseus/geometry/utils.py:LieGroupTensor.add_"]}
{"id": "C41", "title": "add() is atomic", "statement": "A call to Objective.add() that raises leaves the objective as it was before the call: the cost function is not registered, no variable is added, and erase() of other cost functions is unaffected.", "quantifier": "every objective state reachable by add/erase and every cost function whose add raises", "why_tests_cant": "the ways an add can fail (dtype, name clash, dual use, weight variables) combine with every prior history", "anchors": ["theseus/core/objective.py: Objective.add, Objective._add_function_variables, Objective.erase"]}
{"id": "C42", "title": "Cost weights with optimization variables are rejected", "statement": "Objective.add() raises for every cost function whose weight registers optimization variables, at any point of any history.", "quantifier": "all histories of add/erase, including ones in which an earlier add raised, and all sharing patterns of weights", "why_tests_cant": "depends on sharing of weight objects and on earlier exceptions", "anchors": ["theseus/core/objective.py: Objective.add"]}
{"id": "C43", "title": "CONVERGED is reported only for elements that moved or were already below tolerance", "statement": "A batch element is reported CONVERGED only if a step was applied to it and changed its error by less than the tolerance, or the mean error is below the absolute tolerance; an element whose steps were all rejected is not reported CONVERGED.", "quantifier": "all optimizers with step rejection, all batches and accept/reject histories", "why_tests_cant": "depends on the joint history of accept/reject decisions of all batch elements", "anchors": ["theseus/optimizer/nonlinear/nonlinear_least_squares.py:_optimize_loop", "theseus/optimizer/nonlinear/nonlinear_optimizer.py:_check_convergence"]}
{"id": "C44", "title": "Batch elements are optimized independently", "statement": "For optimizers whose step is computed and accepted per batch element, each element's sequence of iterates in a batched optimize() is the sequence it has when optimized alone.", "quantifier": "all batch sizes, all initial values, all per-element step functions and error functions", "why_tests_cant": "ranges over all companions an element can have in a batch", "anchors": ["theseus/optimizer/nonlinear/nonlinear_least_squares.py:_optimize_loop", "theseus/optimizer/nonlinear/nonlinear_optimizer.py:_check_convergence"]}
{"id": "C46", "title": "GPU sparse kernels are schedule independent and correct", "statement": "The CUDA kernels for M^T v, M^T M and the damping of the normal matrix leave, for every order in which the threads' atomic additions take effect, exactly M^T v, M^T M in the given structure, and the matrix with alpha*d+beta added to every diagonal entry d; the binary search they use finds the column.", "quantifier": "every well formed CSR structure, all values, every interleaving of the threads", "why_tests_cant": "all thread schedules and all sparsity structures", "anchors": ["theseus/extlib/mat_mult.cu:mult_MtM_kernel", "theseus/extlib/mat_mult.cu:bisect_index", "theseus/extlib/mat_mult.cu:tmat_vec_kernel", "theseus/extlib/mat_mult.cu:apply_damping_kernel"]}
{"id": "C48", "title": "Jacobians of the planar group operations are the derivatives", "statement": "The Jacobians returned by compose, inverse, between, local, log_map, transform_from, transform_to, rotate, unrotate, xy and theta of SO2 and SE2 are the derivatives of the result along retract(g, t*delta) at t=0 (in the frame of the result when it is a group element), for every direction delta.", "quantifier": "all valid group elements, points, tangent directions and both dtypes (relative rotation away from the half turn and from the small-angle branch for log_map and local)", "why_tests_cant": "equality of functions on a continuum; numerical differentiation only samples it up to tolerance", "anchors": ["theseus/geometry/lie_group.py:LieGroup.between", "theseus/geometry/lie_group.py:LieGroup._compose_jacobian", "theseus/geometry/lie_group.py:LieGroup._local_impl", "theseus/geometry/se2.py:SE2.transform_to", "theseus/geometry/se2.py:SE2.transform_from", "theseus/geometry/so2.py:SO2.rotate"]}
{"id": "C49", "title": "project() is the chain rule onto the tangent space", "statement": "project(euclidean_grad) of SO2 and SE2 returns the gradient with respect to the tangent vector: its inner product with any delta is the derivative at t=0 of the linear function with that euclidean gradient along retract(g, t*delta).", "quantifier": "all group elements, gradients and directions", "why_tests_cant": "for all gradients and elements on a continuum", "anchors": ["theseus/geometry/so2.py:SO2._project_impl", "theseus/geometry/se2.py:SE2._project_impl"]}
{"id": "C50", "title": "SO3 and unit quaternions", "statement": "Converting a unit quaternion to a rotation yields a rotation matrix whose action is conjugation by the quaternion (products map to products, q and -q to the same rotation, scaling is normalised away), its Jacobian is the derivative along the quaternion, and to_quaternion of a rotation returns a unit quaternion with non-negative scalar part that converts back to the rotation.", "quantifier": "all quaternions and all rotations", "why_tests_cant": "continuous domain; the branches near 0 and near pi are hit by no random test", "anchors": ["torchlie/torchlie/functional/so3_impl.py:_quaternion_to_rotation_autograd_fn", "torchlie/torchlie/functional/so3_impl.py:_jquaternion_to_rotation_impl", "theseus/geometry/so3.py:SO3.to_quaternion"]}
{"id": "C51", "title": "SO3 Jacobians and hand-written backward passes are derivatives", "statement": "The Jacobians returned by SO3 exp, log, compose, inverse, between, transform, untransform and local are the derivatives of those operations along right retractions, project maps a Euclidean gradient to the gradient in the tangent space, and every hand-written backward returns the adjoint of the derivative of its forward.", "quantifier": "all rotations, tangent vectors, points, directions and upstream gradients, all branches of exp and log", "why_tests_cant": "continuous domain; numeric differentiation checks a few samples up to tolerance and never the small-angle and half-turn branches", "anchors": ["torchlie/torchlie/functional/so3_impl.py", "theseus/geometry/so3.py"]}
{"id": "C52", "title": "SO3 normalize projects to the nearest rotation", "statement": "SO3.normalize returns a rotation matrix, leaves rotations unchanged, no rotation is closer to the argument in Frobenius norm, and its hand-written backward returns the gradient of normalize.", "quantifier": "all 3x3 matrices, all singular value decompositions of them", "why_tests_cant": "optimality over all rotations; degenerate singular values have measure zero", "anchors": ["torchlie/torchlie/functional/so3_impl.py:_normalize_impl_helper", "torchlie/torchlie/functional/so3_impl.py:_normalize_backward_helper"]}
{"id": "C53", "title": "SE3 exponential, logarithm, retract and local", "statement": "SE3.exp_map is the matrix exponential of the twist's 4x4 hat matrix (within explicit bounds in the near-zero branch), SE3.log_map of any rigid motion is the twist with angle at most pi whose exponential is that motion, log(exp v) = v below half a turn, retract and local are mutually inverse, and the conversion to and from position plus quaternion is the rigid motion the quaternion describes.", "quantifier": "all twists, all rigid motions, both dtypes", "why_tests_cant": "continuous domain with near-zero, middle and near-pi branches", "anchors": ["torchlie/torchlie/functional/se3_impl.py:_exp_impl_helper", "torchlie/torchlie/functional/se3_impl.py:_log_impl_helper", "theseus/geometry/lie_group.py:LieGroup.local", "theseus/geometry/se3.py:SE3.x_y_z_unit_quaternion_to_SE3"]}
{"id": "C54", "title": "SE3 Jacobians and hand-written backward passes are derivatives", "statement": "The Jacobians returned for SE3 exp, log, compose, inverse, between, local, transform and untransform are the derivatives of these maps along every differentiable curve of rigid motions, and the hand-written autograd backward passes are the corresponding vector-Jacobian products.", "quantifier": "all rigid motions, twists, points, directions and output gradients", "why_tests_cant": "finite differences check one point and one precision at a time and cannot see small coefficient errors in the near-zero branch", "anchors": ["torchlie/torchlie/functional/se3_impl.py", "theseus/geometry/lie_group.py", "theseus/geometry/se3.py"]}
{"id": "C55", "title": "Group objects are valid or rejected", "statement": "With Lie group checks enabled, SO2/SE2/SO3/SE3(tensor=t) stores t unchanged if every element is a group element up to the documented tolerance; otherwise it raises ValueError (strict_checks) or stores the normalized tensor, which passes the check. With checks disabled, t is stored unchanged.", "quantifier": "every tensor, batch size, dtype and check setting", "why_tests_cant": "real-valued inputs, any batch composition, any check context", "anchors": ["theseus/geometry/manifold.py:Manifold.__init__", "theseus/geometry/manifold.py:Manifold._check_tensor", "theseus/geometry/so2.py:SO2._check_tensor_impl", "theseus/geometry/so3.py:SO3._check_tensor_impl", "torchlie/torchlie/functional/check_contexts.py"]}
{"id": "C56", "title": "LieTensor operators mean what the README says", "statement": "For torchlie LieTensors g and h of the same ltype, g * h equals g.compose(h), as the README asserts.", "quantifier": "every pair of group elements", "why_tests_cant": "all pairs of elements; equal for commuting ones", "anchors": ["torchlie/torchlie/lie_tensor.py:LieTensor.__mul__", "torchlie/README.md"]}
{"id": "C57", "title": "Measurement cost functions return their derivatives", "statement": "For Between, Local and MovingFrameBetween over any LieGroup class, jacobians() returns the same error as error(), and the Jacobians are the derivatives of the error with respect to tangent moves of each optimization variable; fast_approx_local_jacobians keeps the error and its cached identity always fits the variable.", "quantifier": "every LieGroup class, all values of variables and measurement, all directions of simultaneous movement, every history of calls of jacobians()", "why_tests_cant": "the repository's test compares the Jacobians numerically at random points with a tolerance, and for MovingFrameBetween it differentiates measurement.retract(error) rather than error; a Jacobian missing the factor of log_map passes it", "anchors": ["theseus/embodied/measurements/between.py:Between", "theseus/embodied/measurements/moving_frame_between.py:MovingFrameBetween", "theseus/embodied/misc/local_cost_fn.py:Local", "theseus/geometry/lie_group.py:LieGroup._local_impl"]}
{"id": "C58", "title": "DoubleIntegrator returns its derivatives", "statement": "For DoubleIntegrator (and GPMotionModel) over any LieGroup class, jacobians() returns the error of error() and the derivatives of both its pose part and its velocity part with respect to both poses and both velocities.", "quantifier": "every LieGroup class, all poses, velocities, time steps and directions of movement", "why_tests_cant": "all poses and directions; four simultaneously moving variables", "anchors": ["theseus/embodied/motionmodel/double_integrator.py:DoubleIntegrator"]}
{"id": "C59", "title": "Reprojection predicts the pinhole image and returns its derivatives", "statement": "Reprojection.error() is the image of the world point in a camera at the given pose (negative-z pinhole with focal length and two radial distortion coefficients) minus the observed feature; it does not depend on the choice of world frame nor, for a camera at the origin, on the position of the point on its viewing ray; jacobians() returns that error and its derivatives with respect to the pose and the point.", "quantifier": "all camera poses, points off the image plane of the camera, focal lengths, distortions, features and simultaneous movements", "why_tests_cant": "all real-valued poses and points and all directions of movement", "anchors": ["theseus/embodied/measurements/reprojection.py:Reprojection"]}
{"id": "C60", "title": "Signed distance fields and the collision costs built on them", "statement": "SignedDistanceField2D.signed_distance returns the data at grid points, their bilinear interpolation between them, never leaves the range of the data, varies no faster than the data, is 0 with zero gradient outside the map, and its Jacobian is the derivative inside every cell; after update_data it answers for the new map. Collision2D returns max(0, eps - distance) and EffectorObjectContactPlanar |distance - radius|, with their derivatives; replacing an auxiliary variable or copying keeps the field on the registered variables.", "quantifier": "all maps, points, poses, radii, movements; all sequences of construction, set_aux_var_at and copy", "why_tests_cant": "all points of a continuum and all histories of updates", "anchors": ["theseus/embodied/collision/signed_distance_field.py:SignedDistanceField2D", "theseus/embodied/collision/collision.py:Collision2D", "theseus/embodied/collision/eff_obj_contact.py:EffectorObjectContactPlanar", "theseus/utils/utils.py:gather_from_rows_cols"]}
{"id": "C61", "title": "GPCostWeight is the square root of the inverse motion covariance", "statement": "GPCostWeight accepts exactly positive time steps and positive definite Qc_inv; for every accepted pair the weight exists, is upper triangular with positive diagonal, and its square is the inverse of the covariance [[dt^3/3, dt^2/2],[dt^2/2, dt]] x Qc; weighted errors have the cost of the prior as squared length and weighted Jacobians give its normal equations.", "quantifier": "all dimensions, all matrices Qc_inv and time steps", "why_tests_cant": "unbounded dimension, all positive definite matrices", "anchors": ["theseus/embodied/motionmodel/double_integrator.py:GPCostWeight"]}
{"id": "C62", "title": "HingeCost and Nonholonomic measure the violation of their constraint", "statement": "Every coordinate of HingeCost's error is the distance to the interval [down + threshold, up - threshold]; it is zero exactly inside it, for every limits and thresholds the constructor accepts; Nonholonomic's error is the lateral velocity in the frame of the vehicle; both return their derivatives.", "quantifier": "all vectors, limits, thresholds, poses, velocities and movements", "why_tests_cant": "all real inputs", "anchors": ["theseus/embodied/motionmodel/misc.py:HingeCost", "theseus/embodied/motionmodel/misc.py:Nonholonomic"]}
{"id": "C63", "title": "QuasiStaticPushingPlanar returns its derivatives and does not depend on the world frame", "statement": "jacobians() returns the error of error() and its derivatives with respect to both object poses and both effector poses; moving the world frame does not change the error.", "quantifier": "all four poses, all movements, relative rotation below a half turn", "why_tests_cant": "all poses and directions, four simultaneously moving variables", "anchors": ["theseus/embodied/motionmodel/quasi_static_pushing_planar.py:QuasiStaticPushingPlanar"]}
{"id": "C64", "title": "Forward kinematics are the products of the joint transforms", "statement": "For every URDF description that is a tree, Robot.from_urdf_file succeeds, its dof is the number of non-fixed joints, entry i of the joint angles belongs to exactly one non-fixed joint, and forward kinematics return for every requested list of links the product of origin and motion of the joints on the path from the root, whatever the order of the file and however fixed joints are merged; an input of another width is rejected.", "quantifier": "all trees, joint types, origins, axes, orders of the file, lists of links and angles", "why_tests_cant": "unbounded trees and all real angles; tests use a few robots", "anchors": ["torchkin/torchkin/robot.py:Robot.from_urdf_file", "torchkin/torchkin/joint.py", "torchkin/torchkin/forward_kinematics.py:ForwardKinematicsFactory"]}
{"id": "C65", "title": "Jacobians and gradients of the forward kinematics are exact", "statement": "The spatial and the body Jacobians of every requested link give the spatial and the body velocity of its pose for every movement of the joints, and the backward pass returns the gradient with respect to the angles of every loss of the poses.", "quantifier": "all trees, lists of links, angles, differentiable movements and gradients of the poses", "why_tests_cant": "derivatives at all real points of unbounded trees", "anchors": ["torchkin/torchkin/forward_kinematics.py:ForwardKinematicsFactory", "torchkin/torchkin/forward_kinematics.py:get_forward_kinematics_fns"]}
{"id": "C66", "title": "UrdfRobotModel and the axis-aligned joints work as documented", "statement": "UrdfRobotModel maps every requested link name to its pose, and with link_names=None all links; RevoluteJointX, Y and Z rotate about the x, y and z axis.", "quantifier": "all robots, link names, angles and ids", "why_tests_cant": "all robots and ids", "anchors": ["theseus/embodied/kinematics/kinematics_model.py:UrdfRobotModel", "torchkin/torchkin/joint.py:RevoluteJointX"]}
{"id": "C67", "title": "Backward modes return the derivative of the solution", "statement": "When the inner optimization has converged to a stationary point, the derivative of the layer's output with respect to every differentiable input, as obtained with backward_mode implicit, truncated or dlm (dlm_epsilon tending to 0), is the derivative of the solution of the optimization problem; every mode accepts the same inputs.", "quantifier": "all smooth objectives, solutions, curves of inputs, step sizes, dampings, numbers of backward iterations, incoming gradients, input dictionaries", "why_tests_cant": "a gradient must be right in every direction at every problem; tests compare a few problems, usually with zero residual", "anchors": ["theseus/optimizer/nonlinear/nonlinear_least_squares.py:_optimize_loop", "theseus/theseus_layer.py:TheseusLayerDLMForward", "theseus/theseus_layer.py:_DLMPerturbation", "theseus/theseus_layer.py:TheseusLayer.forward"]}
{"id": "C68", "title": "LML is the differentiable soft selection of the N largest scores", "statement": "LML(N)(x) returns, within its tolerance, the unique minimizer of minus the total score minus the binary entropy over vectors in [0,1] summing to N; larger scores get larger weights; its backward is the derivative of that minimizer.", "quantifier": "all scores, N, numbers of scores, tolerances, branch factors, curves of scores and incoming gradients", "why_tests_cant": "a search with a fixed bracket must work for every vector of scores; gradients in every direction", "anchors": ["theseus/third_party/lml.py:LML_Function.forward", "theseus/third_party/lml.py:LML_Function.backward"]}
{"id": "C69", "title": "A DCEM iteration moves to the mean of the elite", "statement": "One iteration of DCEM sets the mean and standard deviation to those of the n_elite samples with the smallest errors (temp None or inf), or to a weighted mean preferring smaller errors; the mean lies in the convex hull of the samples and within [lb, ub].", "quantifier": "all samples, errors, n_sample, n_elite, temperatures, normalization, bounds", "why_tests_cant": "samples are random; every draw and parameter choice", "anchors": ["theseus/optimizer/nonlinear/dcem.py:DCEM._CEM_step", "theseus/optimizer/nonlinear/dcem.py:DCEM.__init__", "theseus/optimizer/nonlinear/dcem.py:DCEM._mu_vec_to_dict"]}
{"id": "C70", "title": "DCEM's report is meaningful", "statement": "DCEM.optimize ends after at most max_iterations iterations; its histories hold the visited means, best_solution is the best of them; every element is CONVERGED (frozen from the iteration at which it was flagged, which converged_iter tells) or MAX_ITERATIONS; failures without gradients are reported as FAIL; unsupported backward modes are refused.", "quantifier": "all samplers, errors (nan included), batch sizes, tolerances, iteration limits", "why_tests_cant": "all random histories", "anchors": ["theseus/optimizer/nonlinear/dcem.py:DCEM._optimize_loop", "theseus/optimizer/nonlinear/dcem.py:DCEM._optimize_impl"]}
{"id": "C71", "title": "AutoDiffCostFunction returns the exact Jacobians in every autograd mode", "statement": "For an error function that acts row by row, AutoDiffCostFunction.jacobians() returns, for every optimization variable and batch element, the derivative of the error along the variable's retraction, together with error(); the three autograd modes return the same result, whatever mixture of batch sizes 1 and B the variables have; and a failed call leaves the cost function usable.", "quantifier": "all error functions differentiable at the current values, all numbers and classes of variables, all batch sizes and mixtures of them, all modes, all histories of calls", "why_tests_cant": "the derivative claim is about all differentiable error functions, and the modes only differ for particular combinations of batch sizes or after exceptions", "anchors": ["theseus/core/cost_function.py:AutoDiffCostFunction.jacobians", "theseus/core/cost_function.py:AutoDiffCostFunction._compute_autograd_jacobian_vmap", "theseus/core/cost_function.py:_tmp_tensors", "theseus/geometry/lie_group.py:LieGroup.project"]}
{"id": "C72", "title": "Gaussians are transported exactly between a Lie group and a tangent plane", "statement": "local_gaussian(variable, gaussian) returns the tangent-plane mean variable.local(mean) and a precision that assigns to every displacement in the tangent plane the exponent the original precision assigns to the velocity with which the retracted point leaves the mean; it is symmetric or positive definite when the original is; with return_mean=False the first result is the information vector of the same Gaussian. retract_gaussian never fails on a symmetric precision below a half turn and is the inverse: the two round trips return the Gaussian one started from.", "quantifier": "all five LieGroup classes, all variables, means, precisions (of every dimension for Vector), all displacements, both dtypes", "why_tests_cant": "a claim about derivatives and quadratic forms for all group elements and all precision matrices; below the thresholds the formulas change", "anchors": ["theseus/optimizer/manifold_gaussian.py:local_gaussian", "theseus/optimizer/manifold_gaussian.py:retract_gaussian"]}
{"id": "C73", "title": "A ManifoldGaussian keeps its mean and precision consistent, and its copies are independent", "statement": "Constructing a ManifoldGaussian succeeds exactly for a non-empty mean and a precision of matching shape, dtype and device that is symmetric (default: identity), changes no existing object and keeps the given variables. update() replaces all means by the given values and the precision, or raises and changes nothing. copy() shares no storage with the original: no later operation on one is visible in the other. After every history of construction, update, copy, to() and variable updates the precision fits the mean.", "quantifier": "all histories of operations on any number of Gaussians, variables and tensors, with arbitrary sharing of variables and tensors, batch sizes, dtypes and devices", "why_tests_cant": "depends on aliasing and on exceptions at every point of a history", "anchors": ["theseus/optimizer/manifold_gaussian.py:ManifoldGaussian", "theseus/core/variable.py:Variable.update"]}
{"id": "C74", "title": "An update of the least-squares optimizers is a descent direction, and solves a linear problem in one step", "statement": "Whenever the linear solve succeeds at a state that is not stationary, the update computed by Gauss-Newton, Levenberg-Marquardt (any damping >= 0, ellipsoidal or not) and Dogleg decreases the error metric for every sufficiently small step size; at a stationary state of a full-rank problem the optimizer stays. If the error is affine in the variables, a full Gauss-Newton step reaches a minimum, a partial step a leaves the fraction (1-a)^2 of the excess error, every step size in (0,2) decreases the error for any damping, and LinearOptimizer reports CONVERGED with the minimizers as best solution, or FAIL with everything unchanged. A full step on a nonlinear problem need not decrease the error.", "quantifier": "all problems (any manifold, dimension, number of costs), states, damping values, step sizes, solvers that return exact solutions, numbers of iterations, batches", "why_tests_cant": "a statement about all sufficiently small step sizes and all problems; tests check convergence on particular examples", "anchors": ["theseus/optimizer/linear/linear_optimizer.py:LinearOptimizer", "theseus/optimizer/nonlinear/gauss_newton.py:GaussNewton.compute_delta", "theseus/optimizer/nonlinear/levenberg_marquardt.py:LevenbergMarquardt.compute_delta", "theseus/optimizer/nonlinear/dogleg.py:Dogleg.compute_delta"]}
{"id": "C75", "title": "check_singular isolates singular elements of the batch", "statement": "A dense solver constructed with check_singular=True returns, for every batch element with a non-singular normal matrix, the solution of its damped system, and zero for every element with a singular one; it raises only if a non-singular element cannot be solved. On batches without singular elements it returns what the solver without the check returns.", "quantifier": "all batches of normal equations of any size, all dampings (none, common, per element), ellipsoidal or not, all dtypes", "why_tests_cant": "must hold for every pattern of singular elements in the batch and every damping shape", "anchors": ["theseus/optimizer/linear/dense_solver.py:DenseSolver.solve", "theseus/optimizer/linear/dense_solver.py:DenseSolver._apply_damping_and_solve"]}
{"id": "C76", "title": "The BaSpaCho solver solves the damped normal equations", "statement": "Whatever elimination order and block storage the library chooses, and however the GPU threads interleave, the BaSpaCho solver's result for every batch element is a solution of the (damped) normal equations of the objective's linearization, the same system the dense solver solves; it never aborts because a block it accesses is not stored, and succeeds if the systems are positive definite.", "quantifier": "all objectives and variable sizes, all batch sizes, all dampings (none, common, per element; ellipsoidal or not), all elimination orders and storages, all interleavings", "why_tests_cant": "the elimination order, storage and thread schedule are chosen by the library and the GPU; must hold for all of them and for every sparsity pattern", "anchors": ["theseus/optimizer/linear/baspacho_sparse_solver.py:BaspachoSparseSolver.reset", "theseus/optimizer/linear/baspacho_sparse_solver.py:BaspachoSparseSolver.solve", "theseus/optimizer/autograd/baspacho_sparse_autograd.py:BaspachoSolveFunction.forward", "theseus/extlib/baspacho_solver.cpp:NumericDecomposition", "theseus/extlib/baspacho_solver_cuda.cu"]}
{"id": "C77", "title": "reset leaves the BaSpaCho solver ready for the requested device", "statement": "After any history of resets, if the last reset did not raise, the solver's symbolic decomposition is one for the device of that reset.", "quantifier": "all histories of resets, failing or not, on all devices", "why_tests_cant": "quantifies over every history, including failures of the environment", "anchors": ["theseus/optimizer/linear/baspacho_sparse_solver.py:BaspachoSparseSolver.reset"]}
{"id": "C78", "title": "left_act and left_project multiply the right blocks of tensors of any shape, and their hand-written gradients are the derivative", "statement": "For group and tensor of any shapes that fit (the group's batch dimensions broadcast with the tensor's, dim_out extra dimensions of the tensor not shared by the group), left_act and left_project return the tensor of the expected shape whose every block is the product of the group element (its inverse's rotation) and the tensor's block; the gradients returned by their backward functions, after autograd's reduction, have the shapes of the inputs and are the exact adjoint of the derivative, for SO3 and SE3 (whose translation gets zero gradient). left_act returns for no other shapes; with the default dim_out a tensor with fewer dimensions than the group raises.", "quantifier": "all shapes (any number of dimensions, size-1 and empty ones included), all entries, all dim_out, all output gradients and directions", "why_tests_cant": "the permutation of the dimensions, the broadcasting and the reductions depend on the whole shape; tests try a handful of shapes", "anchors": ["torchlie/torchlie/functional/so3_impl.py:_left_act_impl", "torchlie/torchlie/functional/so3_impl.py:_left_act_backward_helper", "torchlie/torchlie/functional/so3_impl.py:LeftProject", "torchlie/torchlie/functional/se3_impl.py:_left_act_backward_helper", "torchlie/torchlie/functional/utils.py:permute_op_dim", "torchlie/torchlie/functional/lie_group.py:LeftProjectImplFactory"]}
{"id": "C79", "title": "compute_samples draws from the Gaussian approximation of the posterior", "statement": "For every linear solver with positive definite AtA, positive temperature T and number of samples, TheseusLayer.compute_samples returns samples whose mean is the solution (the variables plus the solver's step) and whose covariance is T (AtA)^-1, uncorrelated with each other, for every batch element and variable ordering; without a solver it returns None.", "quantifier": "all numbers of variables, sizes, orderings, batch sizes, matrices, temperatures and noise with zero mean and unit covariance", "why_tests_cant": "a statement about the moments of a distribution; tests draw a few samples", "anchors": ["theseus/theseus_layer.py:TheseusLayer.compute_samples", "theseus/optimizer/dense_linearization.py:DenseLinearization.hessian_approx"]}
{"id": "C80", "title": "rand, randn and identity return elements of the group, and SO3.rand is uniform", "statement": "SO2/SE2/SO3/SE3 rand, randn and identity return the asked number of elements, each of them in the group, whatever numbers the generator produces; translations of rand are in the unit cube and planar angles in [-pi, pi); identity is neutral for compose and fixes points. SO3.rand turns uniform numbers into uniform rotations: it reaches every rotation except those sending the x axis to its opposite, each one exactly twice, with a constant volume factor; SO2.rand is a bijection of [0,1) with the circle. Each batch element uses random numbers of its own. Sizes that are not 1-D are refused by theseus.", "quantifier": "all batch sizes and shapes, all sequences of random numbers in [0,1) (rand) or real (randn), dtypes, grad modes", "why_tests_cant": "tests check a few seeds and tolerances; validity for every draw and uniformity are statements about all of them", "anchors": ["torchlie/torchlie/functional/so3_impl.py:rand,randn,identity", "torchlie/torchlie/functional/se3_impl.py:rand,randn,identity", "theseus/geometry/so2.py:SO2.rand,SO2.randn", "theseus/geometry/se2.py:SE2.rand,SE2.randn", "theseus/geometry/so3.py:SO3.rand", "theseus/geometry/se3.py:SE3.rand"]}
{"id": "C81", "title": "verify_jacobians names exactly the cost functions whose Jacobians are wrong, and changes nothing", "statement": "TheseusLayer.verify_jacobians(num_checks, tol) evaluates each cost function at num_checks random values of its variables that do not depend on the values the user has put there; it names a cost function iff at one of them an entry of a Jacobian differs by more than tol from the derivative of the error along retract (a cost function with exact Jacobians is never named, one off by more than tol everywhere always is), prints success iff none is named, and leaves every variable with the value it had.", "quantifier": "all objectives, cost functions, variable values, random numbers, num_checks and tol", "why_tests_cant": "tests run it on a few cost functions and seeds and never look at the variables after a failure", "anchors": ["theseus/theseus_layer.py:TheseusLayer.verify_jacobians", "theseus/utils/utils.py:check_jacobians,_rand_fill_", "theseus/core/cost_function.py:_tmp_tensors"]}
{"id": "C82", "title": "A layer call has no memory: its result depends only on its arguments and on the tensors the variables hold", "statement": "TheseusLayer.forward returns the same values and the same info (or raises alike) whatever calls, failed calls, updates, direct linearizations and solves happened before, if all variables are given; a variable that is not given starts from the tensor it holds (the one the previous call left), exactly as if this tensor were given. The damping, the trust region, the buffers and cached products of the linearization and the factorization contexts left by earlier calls have no influence. The returned tensors are the ones the variables hold afterwards.", "quantifier": "all objectives, error and linearization functions, Gauss-Newton, Levenberg-Marquardt and Dogleg, dense, CHOLMOD and LU solvers, optimizer arguments, backward modes, batch sizes and all histories of the layer", "why_tests_cant": "A test compares two particular histories; leaked state shows only for particular sequences of batch sizes, rejected steps, cached products and exceptions.", "anchors": ["theseus/theseus_layer.py:TheseusLayer.forward,_forward", "theseus/optimizer/nonlinear/nonlinear_least_squares.py:reset,_optimize_impl,_optimize_loop", "theseus/optimizer/nonlinear/levenberg_marquardt.py:reset,_complete_step", "theseus/optimizer/nonlinear/trust_region.py:reset", "theseus/optimizer/sparse_linearization.py:_linearize_jacobian_impl,Atb,diagonal_scaling", "theseus/optimizer/dense_linearization.py", "theseus/optimizer/linear/lu_cuda_sparse_solver.py:reset,solve", "theseus/core/objective.py:update"]}
{"id": "C83", "title": "The field built from an occupancy map is the signed distance to the obstacles", "statement": "SignedDistanceField2D(origin, cell_size, occupancy_map=m): at the centre of a free cell the field is the distance to the nearest occupied cell centre, at the centre of an occupied cell minus the distance to the nearest free one, so its sign separates free from occupied cells; between the centres it differs from the distance to the obstacles by at most cell_size/sqrt(2), is Lipschitz, and a value above sqrt(2)*cell_size guarantees that the point is in no occupied cell; a positive value means that the point is in no occupied cell; a map without obstacles gets a value larger than every distance in the map; each map of a batch is converted with its own cell size or the common one.", "quantifier": "all maps of any size with values above, at and below the threshold, thresholds, origins, cell sizes, points and batches", "why_tests_cant": "Tests compare a few small maps at their cell centres; the bounds between the centres hold for all points of all maps.", "anchors": ["theseus/embodied/collision/signed_distance_field.py:SignedDistanceField2D.__init__,_compute_sdf_data_from_map,signed_distance"]}
{"id": "C84", "title": "Pose-graph files and batches", "statement": "Reading a 3D g2o file returns, for every file in the format, the vertices in increasing order of id with the pose of the last line about each, the edges in file order with their ends, relative pose and the square roots of the diagonal of the information matrix, and one more than the largest id as number of vertices; vertices numbered 0..m-1 are indexed by their id. Writing a graph of a dataset and reading it back returns the same poses, edges and (absolute) weights. Splitting a dataset of n graphs into batches of size B gives ceil(n/B) non-empty batches of at most B graphs that together are the dataset. Every 2D file in the format can be read, and weights follow their graph.", "quantifier": "every file (any number and order of lines, any ids, numbers and quaternions), every dataset, every batch size and batch index", "why_tests_cant": "Files and datasets are unbounded; a test reads a handful of files whose ids are contiguous.", "anchors": ["theseus/utils/examples/pose_graph/dataset.py: read_3D_g2o_file", "theseus/utils/examples/pose_graph/dataset.py: read_2D_g2o_file", "theseus/utils/examples/pose_graph/dataset.py: PoseGraphDataset.__init__", "theseus/utils/examples/pose_graph/dataset.py: PoseGraphDataset.write_3D_g2o", "theseus/utils/examples/pose_graph/dataset.py: PoseGraphDataset.get_batch_dataset"]}
{"id": "C85", "title": "Synthetic pose graphs", "statement": "Whatever random numbers are drawn, a synthetic 3D pose-graph dataset has the requested number of poses, starts at the identity, each initial pose is its ground-truth pose up to the noise levels, each edge joins two different poses and measures their relative ground-truth pose, up to the noise levels exactly when it is flagged an inlier, no pair of poses is joined twice and consecutive poses are joined by inliers. The error histogram counts every edge of every graph exactly once in the right bucket.", "quantifier": "every sequence of random draws, number of poses, dataset size, noise levels and batch size; every list of errors", "why_tests_cant": "A test sees a few seeds; the structure must hold for every draw.", "anchors": ["theseus/utils/examples/pose_graph/dataset.py: PoseGraphDataset.generate_synthetic_3D", "theseus/utils/examples/pose_graph/dataset.py: PoseGraphDataset.histogram"]}
{"id": "C86", "title": "Bundle adjustment data", "statement": "A camera turned into its nine BAL parameters and back is the same camera (exactly, unless its rotation angle is below the logarithm's threshold, and then up to the cube of it), except for the few half turns without a logarithm. A bundle adjustment problem saved to a BAL file and loaded again has the same points, observations and cameras; what is loaded has the sizes the header announces and a file that is too short is refused. Projecting a point gives the image that the Reprojection cost compares with the feature. Whatever random numbers are drawn, random_small_quaternion is a unit quaternion about the drawn axis, a synthetic problem has the requested cameras and points, at their places up to the noise, each camera observes the same number of different existing points, and each feature is the true projection up to the noise. The histogram counts each observation once in its pixel bucket. The soft losses return a value and its derivative.", "quantifier": "every camera, problem, file and sequence of random draws", "why_tests_cant": "A test sees a few files and seeds.", "anchors": ["theseus/utils/examples/bundle_adjustment/data.py: Camera.to_params, Camera.from_params, Camera.project_point, Camera.perturbed, Camera.generate_synthetic", "theseus/utils/examples/bundle_adjustment/data.py: BundleAdjustmentDataset", "theseus/utils/examples/bundle_adjustment/util.py: soft_loss_cauchy, soft_loss_huber_like, random_s2, random_small_quaternion"]}
{"id": "C87", "title": "Batches of vectors, points, rotations and poses are handled item by item", "statement": "An operation on a batch of vectors, points, planar rotations or planar poses is the one-item operation applied to each item: +, -, *, / of Vectors (also with a scalar tensor), negation, abs, dot, outer, matrix products, norm per row, cat; rotate, unrotate, transform_to, transform_from; compose, inverse, between, local and retract, together with the Jacobians they append. A batch of size 1 is repeated to the other operand's size (not by matrix products and cat), the result keeps the class of the left operand, and batch sizes that do not fit are refused with an exception instead of mixing items. No item of the result depends on another item of the inputs. Constructors accept exactly the documented shapes; a Jacobian list that is not empty is refused.", "quantifier": "every pair of batch sizes, every number of components, every contents", "why_tests_cant": "Tests use a few batch sizes; the claim is about every pair of shapes and about independence between the items.", "anchors": ["theseus/geometry/vector.py: Vector", "theseus/geometry/point_types.py: Point2, Point3", "theseus/geometry/so2.py: SO2.rotate, SO2.unrotate, SO2._compose_impl, SO2._inverse_impl, SO2._rotate_shape_check", "theseus/geometry/se2.py: SE2.transform_to, SE2.transform_from, SE2._compose_impl, SE2._inverse_impl, SE2.update_from_rot_and_trans", "theseus/geometry/lie_group.py: LieGroup.compose, LieGroup.between, LieGroup.inverse, LieGroup._local_impl, LieGroup._project_check"]}
{"id": "C88", "title": "Numeric derivatives approximate the derivative", "statement": "numeric_jacobian(function, group_args) returns one (batch, function_dim, dof) Jacobian per argument; its column d is local(function(minus), function(plus)) / (2 delta_mag) where only that argument is moved, by plus and minus delta_mag along its axis d. As delta_mag goes to 0 the column tends to the derivative of the function along that axis, for outputs in every LieGroup class; for Vector outputs the error is at most M delta^2 / 6, M a bound of the third derivative. In particular the numeric Jacobians of between() tend to the Jacobians between() reports. numeric_grad(f, h) returns the central difference along each entry, within M h^2 / 6 of the partial derivative and exact for quadratic functions. Output dimensions that do not match are refused.", "quantifier": "every function, every list of arguments of every LieGroup class, every batch, every step", "why_tests_cant": "Tests compare a few functions at random points with a tolerance; the convergence and the error bound are about every smooth function and every step.", "anchors": ["theseus/utils/utils.py: numeric_jacobian, numeric_grad"]}
{"id": "C89", "title": "LieTensor objects: who shares memory, what may change, what is refused", "statement": "In every program over LieTensors: a LieTensor always has the last two dimensions of its ltype, and never changes its ltype or dtype. Unless somebody writes into a plain tensor, its contents change only through set_, add_, addcdiv_, addcmul_ called on it; if it shares its memory with nothing, no program that does not mention it changes it. ltype(x), new_lietensor, clone, cat, compose, *, inv, log, local, retract and torch functions return results that share memory with nothing; from_tensor, _t, g[i] and g[a:b] share the memory of their argument, and a write is seen in its place. add_ composes with exp of the scaled left-projected gradient and moves the receiver to memory of its own; set_ makes it share the memory of its argument. LieTensors of different ltypes are refused by compose, *, local, set_, cat and the constructors; ordinary tensors by compose, *, local, set_ and (unless marked as gradients) add_; a tensor is marked only by taking part in an operation with a gradient. A call that raises changes no contents. Inside as_euclidean() no torch function returns a LieTensor.", "quantifier": "every program (sequence of operations with any arguments), every functional library behind the ltypes, every tensor", "why_tests_cant": "Aliasing bugs show only in particular histories of views, updates and writes; tests run a few one-step histories.", "anchors": ["torchlie/torchlie/lie_tensor.py: LieTensor, _LieTensorBase, _EuclideanGrad, as_lietensor, cast, from_tensor", "torchlie/torchlie/functional/check_contexts.py"]}
{"id": "C90", "title": "The motion planner: its cost functions, keys, copies, trajectories and initial trajectories", "statement": "MotionPlanner(...) succeeds iff num_time_steps > 0, total_time > 0, Qc_inv is valid, and extra costs are asked of SE2 planners only. Its cost functions are then, in order, the start and goal conditions on pose and velocity with weight 100, and for every step 1..N one collision cost on pose_i with its (or the shared) collision weight and one Gaussian process cost from step i-1 to i, plus the requested nonholonomic and positive velocity costs; the optimization variables are pose_0..pose_N and vel_0..vel_N, and forward accepts exactly the keys sdf_origin, start, goal, cell_size, sdf_data, cost_eps, dt, the collision weights and the limits of the positive velocity costs. get_total_squared_errors returns the sums over the Gaussian process and over the collision costs. The straight line initialization is evenly spaced from start to goal with constant velocity and zero Gaussian process cost. A trajectory tensor and a dictionary of values are converted into each other without loss. copy() gives an equivalent planner with the given collision weight. The initial trajectory model starts at start, ends at goal, bends at right angles and adds to every variable its rows of a sample of a planner that ignores obstacles.", "quantifier": "every configuration (numbers of steps, weights, pose types, dtypes), every start, goal and trajectory, every time step", "why_tests_cant": "The tests run two configurations; the names, orders and rows depend on the number of steps and the option flags.", "anchors": ["theseus/utils/examples/motion_planning/motion_planner.py: MotionPlannerObjective, MotionPlanner, _XYDifference", "theseus/utils/examples/motion_planning/models.py: InitialTrajectoryModel"]}
{"id": "C91", "title": "The timer records every measured region once, under its own name", "statement": "For every program that uses a Timer for regions that follow one another (with timer(name), timer.start(name)/timer.end(), starts that are never ended, switching timer.active between regions), stats() maps every name to the durations of its finished, not deactivated regions run while the timer was active, in order, has a key for exactly those names, and elapsed_time is the last such duration; nothing raises. An inactive timer records nothing. Nested regions are measured separately.", "quantifier": "every sequence of regions, every clock, every name, every sequence of calls for the inactive timer", "why_tests_cant": "The tests time three fixed regions; the state kept between calls (name, temporary deactivation, start time) makes the result depend on the whole history.", "anchors": ["theseus/utils/utils.py: Timer"]}
{"id": "C92", "title": "Random sparse matrices and parameter splits have the promised structure", "statement": "random_sparse_binary_matrix(rows, cols, fill, k) and random_sparse_matrix return, for every state of the generator, a valid CSR structure of the given size in which every column has at least min(rows, k) entries, the last row is not empty, and the number of entries is int(fill*rows*cols) unless the first two requirements need more; for fill <= 1 the loop can always make progress. split_into_param_sizes(n, lo, hi) returns sizes that add up to n, each in [lo, hi) except that the last may be smaller, after at most n draws if lo >= 1.", "quantifier": "every size, fill, minimum, and every sequence of random draws allowed by the contracts of torch.randint and torch.multinomial", "why_tests_cant": "The tests use these functions as generators with a few seeds; nothing checks the structure for all seeds and sizes.", "anchors": ["theseus/utils/sparse_matrix_utils.py: random_sparse_binary_matrix, random_sparse_matrix, split_into_param_sizes"]}
{"id": "C93", "title": "Global tolerances are what was set last", "statement": "After any history of theseus.set_global_params, torchlie.set_global_params and torchlie.reset_global_params calls, every option has the value assigned to it last; get_eps returns torchlie's value for torchlie's tolerances and theseus' for its own; a call with an unknown option raises and a theseus call with a torchlie tolerance refers to torchlie; a call that raises changes nothing; reset restores the initial values; every tolerance the library asks for exists.", "quantifier": "every history of calls, option dictionary, tolerance and dtype", "why_tests_cant": "The tests set a few options once; the parameters are global state whose value depends on the whole history.", "anchors": ["theseus/global_params.py: set_global_params, _TheseusGlobalParams", "torchlie/torchlie/global_params.py: set_global_params, reset_global_params, _TorchLieGlobalParams"]}
{"id": "C94", "title": "The functions of torchlie.functional return the operator and its Jacobians", "statement": "For SO3 and SE3 in torchlie.functional and every operator op: op(x) returns the value; op(x, jacobians=[]) returns the same value, whatever the pass-through setting, and fills the list with exactly the Jacobians, one per argument in order; a list that is not empty, or an operator without Jacobians, is refused and the list is left alone; jop(x) returns the Jacobians and the value.", "quantifier": "every operator of both groups, every argument, every list, both pass-through settings", "why_tests_cant": "The tests call the implementation functions of the modules and not the public j-functions; the equality of the values is needed for every argument.", "anchors": ["torchlie/torchlie/functional/lie_group.py: UnaryOperatorFactory, BinaryOperatorFactory, LieGroupFns", "torchlie/torchlie/functional/utils.py: check_jacobians_list"]}
{"id": "C95", "title": "The tactile pose estimator builds the intended factor graph and gives every measurement to its factor", "statement": "For every number of steps and every window (min, max, step): the estimator's objective has exactly one start prior, a quasi-static cost between consecutive steps, a moving-frame cost for each pair of steps whose distance is in the window (the first step excluded), a contact cost and an effector prior per step, and regularization of all poses if asked, all with distinct names and on the poses of their steps; the inputs made from a batch name exactly the variables that have to be set, each measurement is the one of its pair of steps and episode, the oracle's measurement is the true relative pose (no error at the true poses), and poses are read back as (x, y, theta).", "quantifier": "every number of steps, window, batch size, network and data", "why_tests_cant": "The example has no tests; which row of the network's output reaches which factor depends on batch size, number of pairs and loop order together.", "anchors": ["theseus/utils/examples/tactile_pose_estimation/pose_estimator.py: TactilePoseEstimator", "theseus/utils/examples/tactile_pose_estimation/models.py: get_tactile_nn_measurements_inputs, update_tactile_pushing_inputs, get_tactile_poses_from_values, create_tactile_models", "theseus/utils/examples/tactile_pose_estimation/trainer.py: get_batch_data, compute_loss"]}
{"id": "C96", "title": "The tactile dataset cuts the file into episodes, splits them and serves every one once per epoch", "statement": "For every data file: each item loaded is episode_length consecutive rows of one episode that is long enough, episodes are taken in increasing order until max_episodes are there, and no row is used twice; the training and the validation data made with the same seed are a partition of all data, validation having max(ceil(n val_ratio), 2) items; the batches 0 .. num_batches-1 are the whole dataset in order, cut to min(max_steps, episode_length) steps, none empty and all but the last full; other batch numbers are refused.", "quantifier": "every file, episode length, limit, ratio, permutation, batch size and batch number", "why_tests_cant": "There are no tests of the dataset; the claim ranges over all files and sizes.", "anchors": ["theseus/utils/examples/tactile_pose_estimation/misc.py: TactilePushingDataset.__init__, _load_dataset_from_file, _get_tensor_splits, get_batch"]}
{"id": "C97", "title": "Copying a standard cost function or weight makes an independent one of the same class with the same values", "statement": "For each of the standard cost functions (Between, MovingFrameBetween, Local/Difference, Reprojection, DoubleIntegrator, HingeCost, Nonholonomic, QuasiStaticPushingPlanar, Collision2D, EffectorObjectContactPlanar, the DLM perturbation and the planner's XY difference) and weights (scale, diagonal, Gaussian-process): an object made by the constructor from distinct variables, numbers or tensors, after any later program that creates variables and gives old ones new values by update(), can be copied as long as its present values meet the constructor's demands on values; the copy has the same class and name + \"_copy\" (or the new name), each of its variables is new, of the same class, with exactly the present tensor, registered under the same role, with the same name or name + \"_copy\"; no two are the same variable; and nothing that existed before is changed by copying.", "quantifier": "every class, constructor arguments, later history and copy options", "why_tests_cant": "Tests copy one instance of each class right after construction, with one batch size and valid values.", "anchors": ["theseus/core/theseus_function.py: TheseusFunction.copy", "theseus/core/cost_weight.py: ScaleCostWeight, DiagonalCostWeight", "theseus/embodied/*: the constructors and _copy_impl"]}
{"id": "C98", "title": "Composing and transforming with SO3/SE3 batches of any broadcastable shapes: values, Jacobians, gradients and refusals", "statement": "compose, transform and untransform of torchlie's SO3 and SE3 return exactly when the arguments end in 3x3 (3x4) matrices or 3-vectors and their leading dimensions broadcast; every position of the result holds R0 R1 (R0 t1 + t0), R p (+ t), R^T p (R^T (p - t)) of the matrices and points that broadcasting pairs there. The Jacobian variants return the same value, Jacobians of the result's batch shape, and these map the body velocity of each argument to that of the result whenever the rotations are rotations. The hand-written backward functions, after autograd's reduction to the inputs' shapes, are the exact gradients. theseus' SO3.rotate/unrotate and SE3.transform_from/transform_to accept exactly points of shape (m, 3) whose batch size equals the group's or one of them is 1.", "quantifier": "every number of dimensions, batch shape, value and output gradient", "why_tests_cant": "Tests compare a few batch shapes with numeric Jacobians; the gradient is only compared where shapes are equal.", "anchors": ["torchlie/torchlie/functional/so3_impl.py: _compose_impl, _jcompose_impl, Compose, _transform_impl, _jtransform_impl, TransformFrom, _untransform_impl, _juntransform_impl, Untransform", "torchlie/torchlie/functional/se3_impl.py: the same", "theseus/geometry/so3.py: rotate, unrotate, _rotate_shape_check", "theseus/geometry/se3.py: transform_from, transform_to, _transform_shape_check"]}
{"id": "C99", "title": "AutoDiffCostFunction and the robust wrappers: what the constructors accept and make, what a copy is, what to(dtype) does", "statement": "AutoDiffCostFunction accepts exactly a non-empty list of optimization variables whose names, with those of the auxiliary variables, are pairwise different and not attributes the object already has, with a mode given as enum member or as its name in any case; otherwise it raises ValueError (no variables, unknown mode) or RuntimeError (a name). What it makes has exactly these variables in this order under their names, this weight, dimension, function, mode and options, changes nothing that existed, and passes the dtype checks of jacobians(). RobustCostFunction and GNCRobustCostFunction of it have the base's optimization variables, weight and dimension and one or two auxiliary variables more, and raise when the base already registers one of those names. copy() of each gives the same kind of cost function on new variables and a new weight with the same values, none shared, the base of a wrapper copied too. Objective.to(dtype) converts every variable of every cost function and weight exactly once and leaves jacobians() of AutoDiff cost functions able to run.", "quantifier": "every list of variables, names, mode string, weight, loss, option and sequence of cost functions", "why_tests_cant": "Tests construct each class with a few fixed names and compare one copy; they never use a clashing name nor call to() on a wrapped AutoDiff cost function.", "anchors": ["theseus/core/cost_function.py: AutogradMode.resolve, AutoDiffCostFunction.__init__, _copy_impl, to, jacobians", "theseus/core/robust_cost_function.py: RobustCostFunction.__init__, _copy_impl, GNCRobustCostFunction.__init__, _copy_impl", "theseus/core/theseus_function.py: register_vars, copy, to", "theseus/core/objective.py: to"]}
{"id": "C100", "title": "Constructing geometric variables: which arguments are accepted, which value, dtype, name and identity the variable gets", "statement": "Vector, Point2, Point3, SO2, SE2, SO3 and SE3 constructed without a value hold one neutral item (zero translation, identity rotation) of the requested or the default dtype. Constructed from a tensor of the right shape and dtype they hold that very tensor; if checks are on and an item is not in the group, strict construction raises ValueError and otherwise the value is the item-wise normalized one in new memory, with a warning. A tensor of another shape or dtype, or giving both the tensor and the shorthand, raises ValueError. From theta, x_y_theta, quaternion or x_y_z_quaternion they hold the items these mean, in new memory, with the dtype and requires_grad of the argument, and anything else is refused. Every variable has an id larger than all before it and, unless named, the name Class__id, so two unnamed variables never share a name. rand and randn give the requested number of items of the requested dtype and requires_grad.", "quantifier": "every class, argument combination, shape, dtype, batch size, check setting and every program of constructor calls some of which raise", "why_tests_cant": "Tests construct a handful of shapes with checks on; the combinations of settings, dtypes, shapes and sequences with exceptions are unbounded.", "anchors": ["theseus/geometry/manifold.py: Manifold.__init__, _check_tensor", "theseus/geometry/vector.py: Vector.__init__, rand, randn", "theseus/geometry/point_types.py: _prepare_dof_and_tensor, Point2, Point3", "theseus/geometry/so2.py: SO2.__init__, update_from_angle, rand, randn", "theseus/geometry/se2.py: SE2.__init__, update_from_x_y_theta, update_from_rot_and_trans, rand, randn", "theseus/geometry/so3.py: SO3.__init__, unit_quaternion_to_SO3, rand, randn", "theseus/geometry/se3.py: SE3.__init__, x_y_z_unit_quaternion_to_SE3, update_from_rot_and_trans, rand, randn", "theseus/core/variable.py: Variable.__init__, update"]}
{"id": "C101", "title": "Constructing optimizers, setting their parameters and choosing modes", "statement": "GaussNewton, LevenbergMarquardt, Dogleg and LinearOptimizer are constructed exactly when the objective has the squared-norm metric (not needed for LinearOptimizer), the linear solver is available and takes the given options, the linearization class is the solver's own and a given ordering covers the variables. The optimizer has the requested solver (CholeskyDense by default) with that ordering, the given parameters and defaults for the others, and one temporary per variable; LevenbergMarquardt supports adaptive and ellipsoidal damping with every solver but Cholmod and refuses these options otherwise. set_params changes exactly the named parameters and raises ValueError for an unknown name. A backward mode may be given as member or as its name in any case; anything else raises ValueError.", "quantifier": "every optimizer, solver and linearization class, objective, option list, ordering, parameter list and mode string", "why_tests_cant": "Tests construct the usual combinations; wrong options, partially failing calls and all strings are unbounded.", "anchors": ["theseus/optimizer/nonlinear/nonlinear_least_squares.py: NonlinearLeastSquares.__init__", "theseus/optimizer/nonlinear/nonlinear_optimizer.py: BackwardMode.resolve, NonlinearOptimizerParams.update, set_params", "theseus/optimizer/nonlinear/levenberg_marquardt.py: _check_linear_solver, __init__, reset, compute_delta", "theseus/optimizer/nonlinear/gauss_newton.py, dogleg.py, trust_region.py: __init__", "theseus/optimizer/linear/linear_optimizer.py: LinearOptimizer.__init__", "theseus/optimizer/linear/dense_solver.py, cholmod_sparse_solver.py, lu_cuda_sparse_solver.py, baspacho_sparse_solver.py, linear_solver.py: __init__", "theseus/optimizer/linearization.py: Linearization.__init__"]}
{"id": "C102", "title": "Comparing version strings", "statement": "A string names the version (a, b, c) when it starts with three decimal numbers separated by dots; what follows the third number does not matter. lt_version(v, w) answers whether the version named by v is earlier than the one named by w (the first number that differs is smaller) and raises ValueError exactly when one of the strings names no version. The answers form a strict order. Importing the package warns exactly when torch's major number is below 2.", "quantifier": "every pair of strings", "why_tests_cant": "Tests compare eight pairs of literals; strings are unbounded.", "anchors": ["theseus/_version.py: lt_version, the check on import"]}
{"id": "C103", "title": "vee of SO2, SE2 and SO3 accepts the hat matrices and no others", "statement": "With Lie group checks enabled SO2.vee returns exactly for a non-empty batch of 2x2 matrices that are hats up to the documented tolerances and gives back the numbers they are the hats of; with checks disabled only the sizes are checked, and it warns exactly when checks are disabled and not silenced. SE2.vee does the same for 3x3 matrices, but for two entries of the last row. SO3.vee returns exactly for batches of 3x3 matrices which, while torchlie's checks are enabled, are non-empty and skew-symmetric up to the tolerance, and then the hat of the result is the argument up to half the tolerance. vee undoes hat for every non-empty batch.", "quantifier": "every tensor of every size, every check context", "why_tests_cant": "Tests use random hats; the matrices near the tolerance, wrong sizes and contexts are unbounded.", "anchors": ["theseus/geometry/so2.py: SO2._hat_matrix_check, hat, vee", "theseus/geometry/se2.py: SE2.hat, vee", "theseus/geometry/so3.py: SO3._hat_matrix_check, hat, vee", "torchlie/functional/so3_impl.py: check_hat_tensor, _vee_impl, _hat_impl", "torchlie/functional/check_contexts.py: checks_base"]}
