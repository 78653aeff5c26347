# Working notes (reading of /repo) — findings and modelling ideas

Findings / suspected code-vs-doc disagreements (each to be confirmed by re-reading, then proved `_refuted` on the model):
F1  Objective.error(input_tensors, also_update=False) only saves/restores optim_vars; aux vars passed in input_tensors stay changed (objective.py error()). Doc says "variables are reverted".
F2  Objective.add(same cf twice) warns "nothing to be done" but appends function again to var->fn maps & weight map; then erase leaves stale vars (has_optim_var True, no cost fn).
F3  Objective.add not atomic: on ValueError/RuntimeError (dual var, weight with optim vars, name clash of variable) cf stays registered.
F4  add where var is optim in cf1 and aux in cf2 (non-mixed): KeyError from functions_for_aux_vars[variable] before ValueError dual message. (check tests)
F5  Dense linearization overwrites A block if the same variable appears twice in a cost fn; sparse keeps duplicate cols (sums). Equal under NoDup vars.
F6  Vectorized objective.error(): order of concatenation is grouped by schema (vectorizer._vectorize non FULL: ret=[... schema_dict.values()]) not order of addition (doc says order of addition). error_metric invariant (permutation). FULL mode keeps order.
F7  RobustCostFunction: Objective.copy uses set_optim_var_at => setattr on outer only; inner cost_function keeps own var copy -> copied objective's robust cf error ignores updates when var shared with earlier cf.
F8  Objective.copy raises ValueError when cf and its weight share a (aux) variable (GPMotionModel dt & GPCostWeight dt): two copies with same name. also when a cf uses same var in two attrs.
F9  NLLS: info.last_err stale when all converged (break before last_err=err). iters_done not incremented on break => _merge_infos overwrites the err_history entry of converged iter; grad loop's converged last err dropped. best_iter not merged. best_iter=0 ambiguous. merge asserts fail if grad loop FAIL under no_grad.
F10 LM/TrustRegion: rho NaN (new err NaN, or den=0) => comparisons False => step ACCEPTED. TR doc says accepted iff rho > accept_threshold; code accepts rho == threshold. doc defaults differ (trust_region_init 1.0 vs .5; accept .25 vs 0.0).
F11 Dogleg: disc clamp(EPS) makes step exceed trust region for small TR (TR=.001, delta_c on boundary, diff .01 -> step = gn). Under disc>=EPS norm<=TR. Batch coupling: `.all()` early return makes element results depend on other batch elements (tau with +EPS).
F12 VariableOrdering.remove doesn't reindex => index_of stale / collisions; append checks only names not identity.
F13 Vectorization cache staleness only tracked by Variable._num_updates: __setitem__/to()/.tensor= don't bump. add() after Vectorize: vectorized error omits new cf.
F14 lie_group_check context managers have no try/finally: exception leaves checks disabled/silenced (set_lie_group_check_enabled, silence_internal_warnings in Optimizer.optimize).  _tmp_tensors same.
F15 geometry/utils.py LieGroupTensor.add_ outside lie tangent ctx calls self.add_ -> infinite recursion.
F16 SE2.exp_map jacobian small-angle: theta - theta^3/120 should be theta/6 - theta^3/120.
F17 SE2.log_map with tensor exactly cos=-1,sin=0: 0*inf=NaN.
F18 RobustCostFunction flatten_dims + vectorized (n>=2, d>1): radius (b*n,1) vs squared_norm (b*n*d,1) shape mismatch (check).
F19 Cholmod solve(damping=0.0) falls back to ctor damping (`damping or self._damping`).
F20 _resolve_batch_size failure after update() mutated vars: non atomic, _batch_size None. Empty objective raises.
F21 sparse diagonal_scaling / matvec bwd `[:, columns] +=` loses duplicates when cols repeated.
F22 ManifoldGaussian.update mutates mean before validating precision.
Positive theorems ideas: batch-size resolution spec; Variable.update mask; objective add/erase refinement (vars = union of cfs' vars) for histories of distinct adds; dense=sparse linearization; vectorization correctness (slices = broadcast results) incl. masking w/ zero weights; retract vectorized=base; loop termination <=3*num_iter solves; converged elements frozen; best_err=min history & best_solution argmin; status trichotomy; split iters sum; LM damping in [1e-7,1e7]; TR clamp; LM adaptive accepted step strictly decreases error (den>0 from SPD solve); LU ring contexts overwritten iff >=K later solves; compute_A_grad adjoint identity (bilinear) incl. damping alpha; sparse_mv backward adjoint; dense damping = alpha/beta damping; robust cost ||h||^2 = rho(||we||^2)+eps, gradient identity r_J^T r_e = rho' J^T e; robust loss derivative = linearize (Coquelicot); SO2/SE2/SO3/SE3 group laws, exp/log, adjoint, jacobians; FK; version check.
F23 Objective.copy drops __allow_mixed_optim_aux_vars__.
F24 Mixed mode: erase deletes _all_variables[name] though the variable is still auxiliary elsewhere; later KeyError.
F25 A cost weight with optimization variables is rejected only the first time (after a caught exception the second add succeeds).
F26 Non-vectorized error() raises at torch.cat when one cost function has only batch-1 variables.
F27 error(also_update=False) with a batch-size change raises while reverting.
F28 AutoDiffCostFunction._copy_impl drops the autograd options.
F29 The vectorizer's wrapper.register_vars raises when a cost function uses the same variable twice.
F30 The vectorization schema ignores non-variable attributes of cost functions, so different functions can be merged.
F31 Vectorized retract asserts equal batch sizes where the sequential one broadcasts.
F32 AutoDiff cost functions with the same err_fn but a different optim/aux split are merged.
F33 masked_variables.__enter__ raising leaves variables masked.
F34 A raising vectorization run marks the cache up to date.
F35 Rejected batch elements are flagged CONVERGED and frozen.
F36 best_err is poisoned by one nan error.
F37 Implicit mode with max_iterations = 0.
F38 last_err is stale on break; iters_done is not incremented.
F39 LM adaptive + ellipsoidal damping with SparseLinearization: diagonal_scaling shape assertion fails.
F40 DenseSolver with check_singular returns float32.
F41 The mean-error convergence test couples batch elements.
F42 The clamp of the dogleg discriminant lets the step leave the trust region.
F43 The backward of sparse_mv loses duplicate columns.
F44 SparseLinearization's structure is built once, at construction; `detached_hessian` vs `_detached_hessian`.
F45 compute_A_grad allocates A_grad with the default dtype.
F46 CHOLMOD ignores the ellipsoidal flag, treats damping = 0.0 as unset, refuses tensor damping.
F47 LU with TRUNCATED and backward_num_iterations = 0: IndexError / ZeroDivisionError.
F48 Implicit mode's GN fallback with ellipsoidal damping and detached Hessian: AssertionError in backward.
F49 Negative multiplicative damping gives a wrong gradient.
F50 Dense damping accepts (B,1), and (D,) at batch 1; sparse raises.
F51 RobustCostFunction flatten_dims with batched log_loss_radius raises or pairs radii with dimensions.
F52 SE2.exp_map Jacobian, small-angle branch: missing division by 6.
F53 SE2.log_map at the exact half turn is nan.
F54 LieGroupTensor.add_ outside the lie-tangent context recurses for ever.
F55 set_lie_group_check_enabled, enable_/no_lie_group_check and silence_internal_warnings have no try/finally.
F56 so2_norm_eps_float64 is never set: normalize of a zero row in float64 is nan.
F57 SO3.log (and to_quaternion) is nan at half turns whose largest diagonal entries tie.
F58 torchlie SE3 check_hat_tensor reads the last column instead of the last row: vee(hat(xi)) raises under enable_checks.
F59 theseus SO3/SE3 validity checks delegate to torchlie's, which are off by default: nothing is ever rejected.
F60 SE3 log Jacobian, small-angle branch: coefficient c has the wrong sign.
F61 torchlie UnaryOperatorFactory.jop uses `module.name` (the attribute is NAME): AttributeError.
F62 SO3.normalize's backward returns zero at equal singular values, in particular at every rotation.
F63 SE3.exp near zero: translation off by at least theta^2 |v| / 13, Jacobian inexact.
F64 torchlie as_euclidean and theseus set_lie_tangent_enabled set the context in __init__, not in __enter__.
F65 torchlie LieTensor `g * h` computes h.compose(g); the README asserts g.compose(h).
F66 MovingFrameBetween.jacobians omits the Jacobian of log_map: wrong for SE2, SO3, SE3 whenever the residual is a non-trivial rotation.
F67 Local's cached identity (fast_approx_local_jacobians) is keyed on the batch size only: after to(dtype) it has the old dtype.
F68 SignedDistanceField2D.update_data keeps the old _num_rows/_num_cols: with a map of another shape points are misreported as outside, or the gather raises.
F69 HingeCost accepts thresholds with 2*threshold > up - down (the error then jumps and is never 0) and negative thresholds as long as one of them is >= 0 (the check is threshold.max() < 0).
F70 GPCostWeight validates the lower triangle of Qc_inv but factors a matrix whose upper triangle it uses: an accepted asymmetric Qc_inv makes weight_error raise. GPMotionModel.copy() returns a DoubleIntegrator.
F71 UrdfRobotModel(link_names=None), the default: forward_kinematics enumerates None and raises TypeError for every robot.
F72 torchkin RevoluteJointX/Y/Z call the base constructor (name, axis_id, id) with (name, id, k): without id TypeError, with an id the axis is the id. (Their _rotation_impl also assigns a (B,1) cosine into a (B) slice, which fails for batches; not modelled.)
F73 BackwardMode.IMPLICIT differentiates one Gauss-Newton step with a detached A^T A: when the error does not vanish at the solution and is not affine, the returned derivative is not the derivative of the solution (example 7/5 instead of 1). The comment at nonlinear_least_squares.py:121-130 acknowledges it; the documentation does not.
F74 BackwardMode.TRUNCATED with step_size a != 1 returns 1-(1-a)^k of the derivative (zero residual), where k counts the iterations the batch element takes part in; the loop also stops once every element converged, after one iteration at an exact solution.
F75 TheseusLayer.forward with backward_mode=dlm and input_tensors None or {} raises (None.items(), unpacking an empty zip), although the other modes accept both.
F76 LML (third_party/lml.py) assumes sigmoid(7) = 1: for N > exp 7 (1097 or more) nearly equal scores put all iterates below N, and gather is called with an index out of range.
F77 DCEM with n_elite >= n_sample (accepted by the constructor) multiplies the mean by (1-1e-5) n_sample/n_elite in the soft mode and n_sample/n_elite in the hard mode: it drifts towards 0.
F78 DCEM(lb, ub): stored and never used.
F79 DCEM does not freeze elements flagged converged: they go on changing, may end at an iteration that is not flagged, and stay CONVERGED; converged_iter counts the unflagged iterations.
F80 DCEM re-raises RuntimeErrors also under no_grad, unlike the other optimizers (status FAIL is never used).
F81 AutoDiffCostFunction(autograd_mode="loop_batch") loops over the rows of optim_vars[0]: when that variable has batch 1 and another has batch B, it silently returns one row of Jacobians, taken at the first row, which the linearization broadcasts to all batch elements. With optim_vars[0] of batch B and any other variable of batch 1 it raises (empty slice), and "dense" raises whenever an optimization variable has batch 1; "vmap" handles all of these. Singleton cost functions (a schema of their own) receive their variables unexpanded, so this is reachable through Objective. When a vectorized group has all weights zero, the masked variables have no rows and loop_batch raises (torch.cat of an empty list), as does dense.
F82 cost_function._tmp_tensors has no try/finally: an exception of err_fn inside vmap leaves dead BatchedTensors in the temporary variables; later successful calls save and restore them, so to() fails from then on.
F83 local_gaussian / retract_gaussian on SE2 with a rotation 0 < |theta| < eps (1e-6 double, 3e-2 float) use the wrong exp_map Jacobian of F52, so the precision is not the transported one (C72_small_angle_refuted).
F84 ManifoldGaussian.update assigns the means before checking the precision: a refused update leaves the new means with the old precision (C73_update_atomic_refuted); copy() then raises.
F85 ManifoldGaussian.update(mean) with the Gaussian's own variables in another order reads variables already overwritten: a swap loses one mean (C73_update_alias_refuted).
F86 The constructor keeps the caller's Variables: two Gaussians over one variable, or Variable.update on it with another batch size, become inconsistent (C73_sharing_refuted).
F87 ManifoldGaussian checks only mean[0]'s batch size, dtype and device (C73_batch_refuted).
F88 LML on a batch: nu_lower[J] -= 7 indexes all rows with a mask over the active rows only; if one row has converged while another still has only non-negative iterates, the forward raises although every row alone succeeds (C68_lml_rows_refuted: 2 rows, eps = 1, branch = 100, exp 14 < nx < exp 20). At the defaults it needs nx > exp 49.
F89 Gauss-Newton (and LM without adaptive damping) has no step control: a full step can increase the error; on x^3-2x+2 from 1 the iterates are 1,0,1,0,... (C74_full_step_refuted). Known for the method; best_solution tracking (C21) is what protects the user.
F90 DenseSolver(check_singular=True) with per-element damping (LevenbergMarquardt adaptive_damping=True) and a singular element: the damping keeps one entry per batch element while AtA is filtered; raises unless exactly one element is non-singular, and then the assignment has the wrong number of rows (C75_per_element_refuted).
F91 The same solver builds output with torch.zeros in torch's default dtype; with float64 data the masked assignment raises (unless it has a single entry), singular or not (C75_dtype_refuted).
F92 The check looks at the undamped matrix: Levenberg-Marquardt never moves a rank deficient element although its damped system is solvable (C75_damped_refuted).
F93 BaspachoSparseSolver.reset records the new device and _has_been_reset before it can raise: after a failed reset (CUDA not available, extension not loadable) the next one does nothing and does not raise; the solver keeps the old decomposition, or has none (C77_reset_refuted).
F94 BaspachoSparseSolver and LUCudaSparseSolver with another linearization_cls raise AttributeError instead of the RuntimeError: the message reads self.linearization before it is set (not modelled).
F95 compute_samples draws the noise and allocates the result in torch's default dtype: with float64 data solve_triangular raises (C79_refuses_refuted). A sparse linearization has no hessian_approx and raises too.
F96 compute_samples writes new_var.tensor into a slice of dof() columns: SO2, SE2, SO3, SE3 variables raise (C79_refuses_refuted).
F97 compute_samples uses one noise matrix for all batch elements: elements with equal AtA get identical deviations (C79_batch_refuted).
F98 compute_samples after an optimization: linear_solver holds the linearization before the last step, and its delta is added to the variables although it has been taken already; after one Gauss-Newton iteration on a linear problem the samples are centred one full step beyond the minimum (C79_mean_refuted).
F99 SE2.rand(n, requires_grad=True) and SE2.randn(n, requires_grad=True) always raise: se2.py:63/85 write in place into a leaf that requires grad; SO2.rand/randn with requires_grad=True return a tensor with a history (not a leaf), while SO3 and SE3 return leaves (C80_requires_grad_refuted).
F100 verify_jacobians / check_jacobians: _tmp_tensors has no try/finally, so when a check fails (or error() raises) the variables of that cost function, optimization and auxiliary, keep random values of batch size 1; the user's values are lost (C81_restore_refuted, C81_lost).
F101 check_jacobians: (j1 - j2).abs().max() > tol is False when any entry is nan, so one nan entry makes the check pass whatever the other entries are (C81_nan_refuted).
F102 _rand_fill_ lists SO3 twice and never SO2: SO2 variables are filled with torch.rand, a point of the unit square and not a rotation; a Jacobian that is right on the group can be reported as incorrect (C81_so2_refuted).
F103 LUCudaSparseSolver(auto_reset=False): optimizer_kwargs batch_size of one call persists in _last_reset_ctx; a later call without it succeeds or raises (or ends with status FAIL under no_grad) depending on the earlier calls (C82_history_independent_refuted). Related: forward writes its token into the caller's optimizer_kwargs dict; CHOLMOD with ellipsoidal_damping or damping_eps raises NotImplementedError, a RuntimeError, which no_grad turns into status FAIL; LU with no context (TRUNCATED, backward_num_iterations=0) raises IndexError.
F104 SignedDistanceField2D from an occupancy map: the bilinear interpolation is positive inside an occupied cell near its corners (up to (sqrt(2)+1)/4 cells for an isolated cell), so signed_distance > 0 does not mean collision free; above sqrt(2)*cell_size it does (C83_positive_is_free_refuted, C83_safe). Also: a batch of cell sizes with a single map raises; a fully occupied map asks scipy for distances to no cell, which is unspecified.
F105 read_3D_g2o_file: the vertices are returned sorted without their ids while edges keep the ids, so in a file whose ids have gaps edge.i / edge.j index the wrong pose or none, and num_vertices is not the number of poses (C84_indexing_refuted; C84_indexing for contiguous ids).
F106 read_3D_g2o_file / read_2D_g2o_file: a blank line raises IndexError (C84_blank_line_refuted).
F107 read_2D_g2o_file line 138: np.array(1, tokens[6:], dtype=np.float64) is a TypeError; no 2D file with an EDGE_SE2 line can be read (C84_2d_refuted).
F108 PoseGraphDataset.get_batch_dataset: only batch_idx < num_batches is checked; -2 returns a batch that straddles two batches (C84_negative_batch_refuted). An edge without a weight (the default of PoseGraphEdge) makes the constructor raise AttributeError (C84_dataset).
F109 PoseGraphDataset: weights with a row per graph are not sliced by get_batch_dataset, and write_3D_g2o writes row 0 for every graph (C84_weights_refuted).
F110 PoseGraphDataset.generate_synthetic_3D: a noise level of 0 raises ZeroDivisionError (C85_zero_noise_refuted). The generator argument only reaches the outliers: all other draws come from the global torch and numpy states, so a seeded generator does not make the dataset reproducible. histogram of a dataset without edges raises (round of nan); its labels say "0-1" for the errors in [0, 0.1).
F111 BundleAdjustmentDataset.load_from_file(path, gt_path) unpacks load_bal_dataset as gt_points, gt_cameras, _ although it returns cameras, points, observations: gt_cameras holds the points and gt_points the cameras; save_to_file with a gt_path then raises AttributeError (C86_ground_truth_refuted).
F112 random_small_quaternion uses cos(theta), sin(theta) instead of the half angle: the rotation is by 2 theta, up to twice max_degrees (C86_small_rotation, C86_small_rotation_refuted).
F113 BundleAdjustmentDataset.generate_synthetic: num_cameras=1 (and 0) raises ZeroDivisionError (C86_one_camera_refuted); unless pts_per_cam + locality covers all points, the last camera's span stops short and the last point is observed by no camera (C86_last_point_refuted).
F114 Vector operators never compare the numbers of components: a Vector with one component is added to (multiplied with, ...) all components of the other operand (C87_dof_refuted).
F115 Vector.norm() without dim is one number for the whole batch, not a norm per item (C87_norm_refuted).
F116 compose/between Jacobians: Vector's have self's batch size, the other groups' the second operand's, not the result's, when one operand is a batch of one (C87_compose_jac_batch_refuted, C87_so2_group).
F117 SE2.update_from_rot_and_trans takes its batch size from the rotation: one rotation with a batch of translations raises RuntimeError, one translation with a batch of rotations works (C87_rot_trans_refuted).
F118 SE2.transform_to/from size their Jacobians by max of the batch sizes, so an empty batch of points with one pose raises when Jacobians are asked for (C87_empty_batch_refuted).
F119 numeric_jacobian of a function with a 1-dimensional output and no function_dim returns dof equal rows instead of raising; function_dim=0 means None (C88_jacobian_rows_refuted, C88_jacobian_dim_zero).
F120 numeric_grad on an integer array: the step is stored in np.zeros_like(x), becomes 0, and the gradient is 0 whatever the function (C88_grad_integers_refuted).
F121 (F65 again, for whole programs) torchlie `g1 * g2` computes g2.compose(g1); torchlie/README.md line 178 asserts it equals g1.compose(g2) (C89_compose, C89_times_is_compose_refuted).
F122 add_/addcdiv_/addcmul_ on a LieTensor made by from_tensor(x) (or on a slice) move it to new memory: x and every other view keep the old value, although writes into x are seen (C89_add, C89_update_reaches_tensor_refuted).
F123 the gradient marker is set on every argument of any torch function a gradient takes part in and never removed, so an ordinary tensor becomes acceptable to add_ (C89_only_gradients_refuted).
F124 as_lietensor/cast of a LieTensor ignore the ltype argument, and convert to float32 by default (C89_as_lietensor, C89_as_checks_ltype_refuted).
F125 g[i] on a LieTensor without a batch dimension, or with more than one, hits a bare assertion (C89_item_unbatched).
F126 MotionPlanner.copy() does not pass nonholonomic_w and positive_vel_w: the copy loses those costs (C90_copy_same_costs_refuted).
F127 copy(collision_weight=0.0) keeps the old weight (`collision_weight or self...`), so InitialTrajectoryModel's auxiliary planner, meant to ignore obstacles, does not (C90_copy_zero_weight_refuted, C90_sample_ignores_obstacles_refuted).
F128 InitialTrajectoryModel adds the rows of lower_cov @ u, which are in the order pose_0, vel_0, pose_N, vel_N, pose_1, ..., to a time-ordered trajectory: with N >= 2 pose_1 gets the rows of pose_N and pose_t those of pose_(t-1) (C90_columns, C90_sample_refuted).
F129 get_variable_values_from_straight_line gives SE2 velocities in the world frame: the Gaussian process error is (R^T - I) d / N, zero only if the start angle is 0 (C90_straight_line_se2, _zero_iff).
F130 the positive velocity cost is a hinge with limit 0 and threshold 1: it asks for a forward velocity of at least 1, at time 0 against the boundary condition of velocity 0 (C90_positive_vel, _refuted, _conflict).
F131 get_trajectory returns torch's default dtype (torch.zeros without dtype) and raises TypeError before the first update (C90_trajectory_dtype_refuted, C90_get_trajectory_raises).
F132 MotionPlanner.forward documents the keys collision_w_0..collision_w_N: collision_w_0 does not exist, and with use_single_collision_weight none of them (C90_documented_keys_refuted).
F133 nonholonomic_w and positive_vel_w are made with torch's default dtype: a float64 planner with them cannot be built unless that is the default; a negative positive_vel_w is an UnboundLocalError (C90_accepts, C90_extra_costs_default_dtype_refuted).
F134 models.py: the bend output is documented as the distance of the vertex, the vertex is at twice that distance (C90_bend_is_distance_refuted).
F135 _XYDifference joins its two type checks with `and`: one wrong type is accepted (C90_xy_types_refuted).
F136 Timer: nested regions lose the outer measurement, and the inner name gets a second entry from the inner start to the outer end (C91_nested_refuted, C91_nested_block_deactivated_refuted).
F137 Timer.start(deactivate=True) that is never ended drops the next start/end measurement; with timer: reuses the previous name; timer.active=True inside a region raises AttributeError or records the time since an older start (C91_unfinished_deactivated_refuted, C91_bare_reuses_name_refuted, C91_activate_inside_refuted).
F138 random_sparse_binary_matrix draws rows with weights 0, 1, 2, ... (the row numbers): row 0 is never chosen unless min_entries_per_col >= num_rows, and with one row the minimum per column is skipped (C92_first_row_refuted, C92_one_row_refuted). fill > 1 can loop forever (C92_fill).
F139 set_global_params is not atomic: the options before an unknown name stay assigned although ValueError is raised; method names (get_eps, reset) are accepted as options (C93_atomic_refuted, C93_methods_refuted).
F140 reset_global_params leaves _faster_log_maps and _allow_passthrough_ops as they are; theseus has no public reset, and its internal one never sets so2_norm_eps_float64 (C93_reset_flags_refuted, C93_so2_norm_refuted). The d_near_zero tolerances are not dataclass fields, so theseus.set_global_params reports so3_d_near_zero_eps_* as unknown instead of referring to torchlie (C93_d_near_zero_refuted).
F141 torchlie.functional.SO3.jexp, .jlog, .jinv, .jquaternion_to_rotation and SE3.jexp, .jlog, .jinv raise AttributeError for every argument: UnaryOperatorFactory reads module.name, the modules define NAME (C94_unary_jop_refuted).
F142 Tactile example, network measurements: with B >= 2 episodes per batch (the example's configuration has 8) the output is reshaped to 1 x (P B) x 4, so all episodes share one measurement per factor, and factor k gets that of pair k / B and episode k mod B (C95_batch_nn_refuted, C95_measurements). Broadcasting hides it.
F143 Tactile example, oracle measurements: reshape(-1, P, 4) of rows ordered pair by pair mixes pairs and episodes when B, P >= 2 (C95_batch_oracle_refuted).
F144 Tactile example, train.mode weights_only: measurements_model is None and compute_loss calls measurements_model.state_dict() (and _update .parameters()): AttributeError on the first batch; an unknown mode prints a message (without formatting it) and raises UnboundLocalError (C95_modes_refuted).
F145 TactilePoseEstimator needs torch's default dtype to be double, otherwise its constructor raises ValueError: poses are double, the objective is of the default dtype (C95_default_dtype_refuted).
F146 Tactile example: when no pair of steps fits the window (time_steps <= min_win_mf + 1, or max_win_mf <= min_win_mf) the estimator is built but every batch raises from torch.cat([]) (C95_inputs_fail).
F147 TactilePushingDataset: an episode with exactly one row makes loading raise TypeError (squeeze() of its index is 0-dimensional, len() fails) instead of being skipped as too short (C96_single_row_refuted).
F148 TactilePushingDataset.get_batch accepts negative numbers: -1 gives an empty batch (C96_negative_batch_refuted).
F149 HingeCost re-checks its limits in the constructor only: after update() makes a lower limit exceed an upper one the cost still evaluates, but copy() (hence Objective.copy, which TheseusLayer uses for DLM) raises ValueError (C97_hinge_copy_raises).
F150 Reprojection without calibrations creates variables always named "calib_k1" and "calib_k2": two such cost functions cannot be in one objective (ValueError: two different variables with the same name) (C97_calib_names).
F151 QuasiStaticPushingPlanar made with a number for c_square and without a name calls its variable "csquare_None": two such cannot be in one objective (C97_csquare_name; the f-string uses the argument name, not self.name).
F152 _XYDifference checks its arguments with `and` for `or`: one wrong class is accepted (C97_xy_accepts).
F153 Constructors reshape the user's variable in place, also when they then raise (C97_refused_but_changed); a (1, d) scale becomes a batch of d (C97_scale_row); DiagonalCostWeight accepts (B, 1, d) (C97_diagonal_middle).
F154 Between's class check is asymmetric (Point2 with Vector is accepted, Vector with Point2 refused) and does not compare sizes (C97_between_accepts).
F155 torchlie SE3 Untransform.backward views the broadcast difference p - t in the shape of the points: with one point (or fewer point batches) and several poses the forward of untransform / SE3.transform_to works and backward raises RuntimeError (C98_untransform_gradient_refuted, C98_untransform_example).
F156 theseus SO3.rotate/unrotate: _rotate_shape_check accepts, and its message announces, points of shape (m, 3, 1), but torchlie's transform demands a last dimension of 3, so they always raise (C98_rotate_column_refuted).
F157 AutoDiffCostFunction registers the variables as attributes first and assigns its internal attributes afterwards: a variable called _dim, _err_fn, _tmp_optim_vars, ... passes the name check and is then silently replaced, so optim_vars yields an int, a function or a list (C99_internal_refuted, C99_internal_ex).
F158 RobustCostFunction copies the base's attributes without a name check: base variables called loss or flatten_dims are overwritten, one called cost_function replaces the base (C99_own_name_refuted); wrapping a robust cost function again always raises ValueError about log_loss_radius (C99_nested_refuted).
F159 to(dtype) of a RobustCostFunction whose base is an AutoDiffCostFunction converts the shared variables but not the base's scratch copies: after Objective.to the next jacobians() raises ValueError from Variable.update (C99_wrapped_to_refuted).
F160 AutoDiffCostFunction without cost_weight makes a ScaleCostWeight of torch's default dtype whatever the dtype of its variables (C99_autodiff_made); an objective of another dtype refuses it (objective.py 182).
F161 SE2.rand and SE2.randn with requires_grad=True always raise RuntimeError: the angle column of the drawn leaf is assigned in place (C100_random_se2_refuted). SO2.rand with requires_grad=True gives a variable whose tensor is not a leaf (C100_random).
F162 SE2.update_from_x_y_theta, SE2.update_from_rot_and_trans and SE3.update_from_rot_and_trans assign self.tensor directly: the update counter stays, so values cached per update count are stale, and batch size or dtype may change without the checks of update() (C100_set_uncounted_refuted, C100_set_rot_trans).
F163 Names given by the user are not compared with default names: SO2(name='SO2__1') followed by SO2() can give two variables of the same name (C100_names_given_refuted).
F164 SE3(x_y_z_quaternion=...) first makes SE3() with torch's default dtype, so it raises ValueError under a half precision default although the argument is float32 (C100_se3_default_refuted).
F165 CholmodSparseSolver, LUCudaSparseSolver and BaspachoSparseSolver given another linearization class raise AttributeError instead of the intended RuntimeError: the message reads self.linearization before it exists (C101_linearization_sparse_refuted).
F166 LevenbergMarquardt.optimize(ellipsoidal_damping=True or damping_eps=...) with Cholmod under torch.no_grad() raises nothing: NotImplementedError is a RuntimeError, which the loop turns into a warning and status FAIL (C101_lm_options_refuted); adaptive_damping raises as intended.
F167 Unknown keyword arguments of the optimizers (max_iteration=5) and of the sparse solvers are silently ignored (C101_unknown_option_refuted, C101_unknown_solver_option_refuted); dense solvers raise TypeError.
F168 set_params applies the names before an unknown one and then raises ValueError; set_params(update=...) is accepted and hides the method, after which every set_params raises TypeError (C101_set_params_atomic_refuted, C101_set_params_update_refuted).
F169 Constructing an optimizer with vectorize=True that fails because of the solver or linearization leaves the objective vectorized (C101_failed_vectorizes_refuted).
- F170 (C102): `lt_version` drops what follows the three numbers, so "2.0.0rc1" and "2.0.0.dev20230101" are not less than "2.0.0": a pre-release of torch 2.0 gives no deprecation warning. `C102_prerelease_refuted`.
- F171 (C103): `SO2.vee` (checks enabled) and `SE2.vee` raise for an empty batch (max() of no elements). `C103_empty_refuted`.
- F172 (C103): `SE2.vee` does not check entries (2,0) and (2,1): any values there are accepted and dropped. `C103_se2_last_row_refuted`.
- F173 (C103): `SE2.vee` checks its argument even when Lie group checks are disabled; SO2, SO3 do not. `C103_se2_context_refuted`.
- F174 (C103): the skew-symmetry test of `SO2.vee`/`SE2.vee` is `torch.allclose` with relative tolerance 1e-5, so large entries may differ by any amount. `C103_relative_refuted`.
- F175 (C103): `SO3.vee` inside `enable_lie_group_check()` accepts any batch of 3x3 matrices, silently: the check is delegated to torchlie, whose own checks are off by default. `C103_so3_checks_refuted`.
Also seen: DCEM and compute_samples only work for variables whose tensor has dof() columns; LML's recovery branch indexes nu_lower (all rows) with a mask over the active rows only.
