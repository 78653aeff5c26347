#!/usr/bin/env python3
"""Regenerates MANIFEST.json from the table below (property -> status, theorems, note)."""
import json, os
C = {}
def claim(p, status, theorems, note): C[p] = dict(property=p, status=status, theorems=theorems, note=note)

claim("C01","proved",["C01_registry_matches","C01_add_accepted_iff_consistent","C01_erase_never_raises"],
 "All histories without exceptions and without re-adding; also: add is accepted iff the resulting set of cost functions is consistent, erase never raises.")
claim("C02","partial",["C02_readd_noop_refuted","C02_readd_partial"],
 "The code violates it: re-adding appends to the variable->function and weight->function lists, so erase leaves stale variables (refuted with witness). Proved: re-adding never raises and keeps cost functions and variable containers.")
claim("C03","partial",["C03_one_object_per_name_partial","C03_one_object_per_name_refuted"],
 "Proved for all histories in which no call raises (re-adding allowed); refuted when raising adds are included, since add is not atomic.")
claim("C04","proved",["C04_version_strictly_increases","C04_stale_optimizer_never_runs"],
 "All histories, raising or not: an optimizer built before runs iff the objective is exactly unchanged.")
claim("C41","partial",["C41_add_atomic_refuted","C41_raising_add_partial"],
 "The code violates atomicity (witness: dual use of a variable raises KeyError and leaves the cost function registered; erase then raises). Proved: every non-atomic raising add invalidates existing optimizers.")
claim("C42","partial",["C42_weight_with_optim_vars_rejected_refuted","C42_weight_with_optim_vars_rejected_partial"],
 "Refuted after a caught exception (second cost function with the same weight is accepted); proved for exception-free histories.")

claim("C05","proved",["C05_batch_size_resolution","C05_update_sets_batch_size","C05_order_independent","C05_empty_batch_rejected"],
 "For all positive batch dimensions: resolution succeeds iff all are 1 or one common b; otherwise ValueError and batch_size None. Edge case 0 next to 1 is rejected.")
claim("C06","proved",["C06_masked_rows","C06_unmasked_replaces","C06_incompatible_rejected","C06_update_exactly_named","C06_unnamed_untouched_always"],
 "All registries built without exceptions, all inputs and masks.")
claim("C07","partial",["C07_error_reverts_partial","C07_error_reverts_refuted","C07_revert_can_raise_refuted"],
 "Refuted for auxiliary variables named in input_tensors (not reverted) and for batch-size changes (reverting raises). Proved: optimization variables and unnamed variables are reverted.")
claim("C08","partial",["C08_error_order","C08_error_length_is_dim","C08_mixed_batch_error_raises_refuted","C08_vectorized_error_partial","C08_vectorized_order_refuted"],
 "Vectorization off: proved for all histories. Vectorized: the error is the concatenation in group order, a permutation of the insertion order (proved); the insertion order itself is refuted when schemas interleave.")

claim("C10","partial",["C10_complete_iff_permutation","C10_index_is_position_partial","C10_default_order","C10_index_is_position_refuted","C10_foreign_variable_accepted_refuted"],
 "Proved for every history: names distinct, index_of defined exactly for listed names, complete iff the names are a permutation. Positions proved when only last variables are removed; refuted otherwise (remove does not reindex). A foreign variable of the same name is accepted (refuted).")

claim("C11","partial",["C11_vectorized_equals_own","C11_vectorized_equals_own_general","C11_singleton_not_broadcast_refuted","C11_schema_must_determine_function_refuted"],
 "Proved for all groupings and sharing patterns when schema-equal cost functions compute the same function and every served batch is the objective's. Refuted: a singleton group whose variables all have batch 1 is served with batch 1; cost functions whose schemas agree but whose functions differ (non-variable attributes) are merged.")
claim("C12","proved",["C12_masking_exact","C12_masked_rows","C12_masking_exact_shipped_weights","C12_variables_restored","C12_mixed_batch_leaves_masked_refuted"],
 "Exactness for every weight that annihilates zero rows (shown for scale, diagonal and the default); restoration whenever entering the mask does not raise; refuted corner: mixed batch sizes make __enter__ raise and leave earlier variables masked.")

claim("C13","partial",["C13_never_stale_partial","C13_update_makes_fresh","C13_gradients_kept","C13_item_assignment_refuted","C13_to_refuted","C13_raising_run_refuted"],
 "Proved for all histories without raising calls, item assignment and to(); an update() naming a registered variable makes everything fresh after any history; gradients are never served detached. Refuted for v[...] = x, for to(), and after a vectorization run that raised.")
claim("C14","proved",["C14_vectorized_retract_equals_sequential","C14_batch_one_variable_refuted"],
 "All orderings of distinct variables of one batch size, all deltas and masks. Corner refuted: optimization variables of batch 1 with a larger delta (sequential broadcasts, vectorized raises).")

claim("C15","proved",["C15_loop_terminates","C15_no_grad_never_raises"],
 "Arbitrary solver, retraction, error and accept/reject decisions; at most 3*num step computations, at most num recorded iterations; without gradients optimize() never raises.")
claim("C16","proved",["C16_status_meaningful","C16_flag_meaning","C16_flag_not_finite"],
 "Unroll mode, abs_err_tolerance > 0 (default 1e-10).")
claim("C17","proved",["C17_converged_frozen","C17_history_constant","C17_zero_tolerance_refuted"],
 "Proved for abs_err_tolerance > 0; with tolerance 0 a converged element can be unfrozen (refuted with witness).")
claim("C18","partial",["C18_best_solution_partial","C18_best_iter_ambiguous_refuted","C18_nan_refuted"],
 "best_err/best_solution are the best of the recorded iterates for elements without nan errors. Refuted: one nan error poisons best_err; best_iter is 0 both for the initial state and the first iterate.")
claim("C19","partial",["C19_merged_info_partial","C19_concatenation_refuted","C19_best_iter_refuted"],
 "best_err and best_solution of the merged info are right; the histories lose the column of a loop that stops by convergence, best_iter and last_err are those of the first loop (refuted).")
claim("C20","proved",["C20_iteration_split","C20_budget_exceeded_refuted"],
 "Proved for max_iterations >= 1 and backward_num_iterations >= 0; outside these bounds (which the code accepts) the budget is exceeded (refuted).")
claim("C43","partial",["C43_converged_means_step_applied_refuted"],
 "Refuted: an element whose every step was rejected is reported CONVERGED (and frozen) when another element of the batch was accepted, or after three all-rejected attempts.")
claim("C44","partial",["C44_batch_independence_partial","C44_batch_independence_refuted"],
 "Every element follows its own sequence of iterates until flagged converged; the stopping point depends on the other elements through the mean-error test (refuted).")

claim("C21","proved",["C21_damping_in_range","C21_damping_direction","C21_every_step"],
 "Every linearization, step, error pair and parameter setting; direction for ratios >= 1 from a damping in range.")
claim("C22","proved",["C22_lm_accepted_decreases","C22_lm_history","C22_tr_accepted_not_larger","C22_tr_history","C22_gn_step_decreases_model","C22_nan_accepted_refuted","C22_example","C22_history_example"],
 "Exact solves of the damped normal equations over the rationals, both damping kinds, whole NLLS runs. nan is outside the claim: a step whose new error is nan is never rejected (refuted).")
claim("C23","partial",["C23_radius_update","C23_defaults_valid","C23_applied_iff_greater_refuted"],
 "Update, mutual exclusion, clamp, parameter validation and 'rejected iff rho < accept_threshold' proved; 'applied iff rho greater than accept_threshold' is refuted at equality and for nan.")
claim("C24","partial",["C24_step_in_region_partial","C24_bounded_excess","C24_gauss_newton_inside","C24_step_decreases_model","C24_step_in_region_refuted","C24_batch_coupling_refuted","C24_example"],
 "Over the reals. Inside the region whenever the discriminant is >= EPS or the Cauchy step is outside; in general the squared norm exceeds the squared radius by less than 1/2000, and it does exceed it (witness: step 1.4 times the radius 1/2800).")

claim("C26","proved",["C26_rows_and_columns","C26_dense_blocks","C26_sparse_equals_dense","C26_csr_well_formed","C26_unordered_variable_raises","C26_example"],
 "Every objective whose cost functions have distinct, ordered variables; a variable missing from the ordering raises.")
claim("C27","proved",["C27_products"],
 "Real arithmetic; additions in any order. diagonal_scaling for an argument with num_cols columns (the code asserts this).")
claim("C30","proved",["C30_forward_products","C30_backward_mv","C30_backward_mtv","C30_duplicate_columns_refuted"],
 "Every well formed CSR structure (strictly increasing columns in each row). Outside it (duplicate column in a row) the backward loses contributions (refuted with witness).")
claim("C46","proved",["C46_bisect_index","C46_mult_MtM","C46_apply_damping","C30_forward_products","C46_example"],
 "Schedules: every permutation of the atomic additions. Real arithmetic instead of floating point (in floating point the order changes rounding).")

claim("C28","partial",["C28_dense","C28_solvers_agree","C28_cholmod_partial","C28_cholmod_refuted","C28_shapes_refuted","C28_example"],
 "Dense, CUDA LU and BaSpaCho agree for every float / one-number / per-element damping, both kinds, every eps and kernel schedule. CHOLMOD agrees for nonzero float spherical damping only: 0.0 falls back to the solver default, the ellipsoidal flag is ignored, tensors are refused (refuted). (B,1) dampings and per-element damping at batch size 1 are treated differently (refuted).")
claim("C29","proved",["C29_solve_backward","C29_solve_backward_invertible","C29_solve_backward_detached","C29_solve_backward_detached_invertible","C29_detached_with_damping_raises","C29_negative_damping_refuted","C29_example"],
 "Exact derivative along every differentiable curve (A(t), b(t)), exact solves, real arithmetic, non-negative multiplicative damping; detached Hessian included. Outside the claim: refuted for negative multiplicative damping (the correction term is skipped); with detached Hessian and positive damping the backward raises AssertionError.")

claim("C25","proved",["C25_never_silently_wrong","C25_fewer_than_K_safe","C25_raises_exactly","C25_optimize_backward_works","C25_two_loops_backward_works","C25_zero_contexts_refuted","C25_example"],
 "All histories of resets and solves. The numbers of a factorization are abstracted to its identity. The optimize() theorems instantiate the loop model of C15; backward_num_iterations = 0 (no step with gradients) chooses 0 contexts and raises at the first solve (refuted).")

claim("C31","partial",["C31_value","C31_value_flat_partial","C31_flat_batched_radius_refuted","C31_example"],
 "Real arithmetic; exact value including the added epsilon, all losses, batch sizes and broadcastings of the radius. flatten_dims with a batched radius is refuted: it raises, or pairs radii with dimensions instead of batch elements.")
claim("C32","partial",["C32_gradient","C32_gradient_flat_partial","C31_example"],
 "For every direction and every differentiable path of the weighted error, with explicit error bound from the epsilons. flatten_dims: for an unbatched radius only (see C31).")
claim("C33","proved",["C33_evaluate_is_loss","C33_linearize_is_derivative","C33_derivative","C33_shape","C33_evaluate_shape_partial","C33_epsilon_refuted"],
 "Real arithmetic, explicit bounds; the epsilon-sized deviations of evaluate itself (hinge not 0 at 0 and not monotone, Huber above the squared error just above the radius) are proved in C33_epsilon_refuted.")

claim("C34","proved",["C34_valid_meaning","C34_so2_group","C34_se2_group","C34_se2_matrix","C34_transform","C34_adjoint","C34_hat_vee","C34_so2_exp_log","C34_retract_local","C34_local_retract"],
 "Real arithmetic, one batch element (the code is elementwise over the batch). Half turn excluded for local (see C35_log_half_turn_refuted).")
claim("C35","partial",["C35_exp_valid","C35_exp_is_exponential","C35_exp_small_angle","C35_log_exp","C35_exp_log","C35_log_exp_small_angle","C35_exp_log_small_angle","C35_log_half_turn_refuted","C35_exp_jac","C35_exp_jac_total","C35_exp_jac_small_refuted","C35_exp_jac_small_partial","C35_log_jac","C35_log_jac_total","C35_log_jac_small_angle"],
 "Real arithmetic. Refuted: log_map at the exact half turn divides by zero (F53); exp_map's Jacobian in the small-angle branch has a wrong third column (missing division by 6, F52). Everything else proved for all tangent vectors and elements, both dtypes, with explicit bounds in the small-angle branches.")
claim("C38","partial",["C38_normalize_partial","C38_normalize_valid_fixed","C38_se2_normalize_partial","C38_se2_normalize_fixed","C38_normalize_float64_zero_refuted"],
 "SO2 and SE2, all inputs except the zero rotation row in float64, where the uninitialised tolerance gives nan (refuted, F56).")
claim("C48","proved",["C48_retract_velocity","C48_compose_jac","C48_inverse_jac","C48_between_jac","C48_transform_from_jac","C48_transform_to_jac","C48_xy_jac","C48_theta_jac","C48_local_jac","C48_so2_jacobians","C48_so2_log_local_jac","C35_log_jac"],
 "Real arithmetic; derivatives along the code's own retract.")
claim("C49","proved",["C49_project","C49_so2_project"],
 "Real arithmetic; dense and sparse variants compute the same row.")

claim("C36","partial",["C36_exp_rotation","C36_exp_is_exponential","C36_exp_small_angle","C36_group","C36_hat_vee","C36_adjoint","C36_transform","C36_log_is_logarithm","C36_log_defined","C36_log_half_turn_refuted","C36_log_exp","C36_log_exp_small_angle"],
 "Real arithmetic, one batch element. Everything proved for all tangent vectors and rotations, both dtypes, with explicit bounds in the near-zero branch; refuted: log of a half turn whose largest diagonal entries tie selects no axis and is nan (F57).")
claim("C50","partial",["C36_quaternion","C36_quaternion_product","C36_quaternion_scale","C36_quaternion_jac","C36_to_quaternion"],
 "Real arithmetic. Conversion to rotations for every non-zero quaternion; to_quaternion for every rotation for which it is defined, with the deviation of its clamps in the bound; undefined at the tied half turns (F57).")
claim("C51","proved",["C36_retract_velocity","C36_exp_jac","C36_exp_jac_total","C36_log_jac","C36_log_jac_total","C36_log_jac_small_angle","C36_log_backward","C36_local_jac","C36_compose_jac","C36_inverse_jac","C36_between_jac","C36_transform_jac","C36_untransform_jac","C36_backward_linear","C36_exp_backward","C36_project"],
 "Real arithmetic; exact derivatives along every differentiable curve; for log's Jacobian in its near-zero branch with an explicit error bound. The jump of exp between branches (angle exactly at the threshold) is excluded.")
claim("C52","partial",["C36_normalize","C52_normalize_backward","C52_normalize_backward_refuted"],
 "Nearest rotation proved for every matrix and every singular value decomposition. The backward is the gradient when the singular values are distinct; at equal singular values (in particular at every exact rotation) it returns zero (refuted, F62).")
claim("C37","partial",["C37_group","C37_hat_vee","C37_adjoint","C37_transform","C37_exp_rigid","C37_vee_check_pure_rotation","C37_vee_check_refuted","C37_normalize"],
 "Real arithmetic, one batch element. Group laws, hat/vee, adjoint, transform, validity of exp and normalize for all rigid motions and twists. Refuted: with torchlie checks enabled vee(hat(v)) is rejected whenever the linear part is not tiny, because the check reads the last column instead of the last row (F58).")
claim("C53","partial",["C37_exp_is_exponential","C37_exp_small_angle","C37_exp_small_angle_error","C37_log_is_logarithm","C37_log_defined","C37_log_exp","C37_retract_local","C37_local_retract","C37_xyz_quaternion"],
 "Real arithmetic. Exact outside the near-zero branch; inside it with explicit bounds, and with a proved lower bound on the translation error (F63). log is undefined exactly at the tied half turns of SO3.log (F57).")
claim("C54","partial",["C37_exp_jac_total","C37_exp_jac","C37_exp_jac_small_angle","C37_exp_jac_small_refuted","C37_retract_velocity","C37_exp_backward","C37_log_jac_total","C37_log_jac","C37_log_jac_small_angle","C37_log_jac_near_zero","C37_log_jac_no_rotation","C37_log_jac_small_refuted","C37_log_backward","C37_local_jac","C37_compose_jac","C37_inverse_jac","C37_between_jac","C37_transform_jac","C37_untransform_jac","C37_backward_linear","C37_compose_backward","C37_inverse_backward","C37_adjoint_backward","C37_transform_backward","C37_untransform_backward","C37_project","C37_normalize_backward"],
 "Real arithmetic; derivatives along every differentiable curve of rigid motions. Exact above the thresholds and at zero angle; refuted in the near-zero branches of exp (F63) and log (coefficient c has the wrong sign, F60), where error bounds are proved instead. For log every angle below half a turn is covered, exactly or with an explicit bound, except the one angle where the branches switch (there the computed log jumps).")

claim("C09","partial",["C09_copy_succeeds_iff","C09_copy_isomorphic","C09_update_tracks_partial","C09_robust_refuted","C09_shared_weight_refuted","C09_mixed_refuted"],
 "Heap model of every object the copy creates. For every objective reachable by add/erase (without re-adding a present cost function, see C02): copying succeeds exactly when no cost function together with its weight introduces a variable twice; the result is an isomorphic copy made of new objects and nothing existing changes; updates of the copy are tracked exactly by every plain cost function and by every robust one that wraps variables no earlier cost function uses. Refuted for the other robust cost functions (F7), for a variable shared by a cost function and its weight (F8, copy raises) and for objectives that allow mixed use (F23).")
claim("C39","partial",["C39_restored_partial","C39_class_managers","C39_exception_keeps_settings","C39_exception_refuted","C39_optimize_refuted","C39_reentrant_refuted","C39_thread_isolation","C39_threads"],
 "Small-step machine of with blocks, exceptions and threads. Restoration and lexical scoping proved for every program in which no exception leaves a block of the generator-based managers (no_lie_group_check, enable_lie_group_check, set_lie_group_check_enabled, silence_internal_warnings), for every interleaving of threads. Refuted for exceptions: these managers have no try/finally and keep the settings of the block (F55), also when optimize() raises; refuted for a re-entered enable_checks object.")
claim("C40","partial",["C40_add_tangent","C40_so2_descent","C40_se2_descent","C40_so3_descent","C40_se3_descent","C40_addc_plain","C40_add_plain_refuted","C40_lie_tensor_add"],
 "Inside the lie-tangent context add_ retracts along the projected update and decreases the loss for small steps, for the four groups. Refuted: outside it add_ calls itself for ever (F54).")
claim("C55","partial",["C55_unchecked","C55_strict_planar","C55_so2_partial","C55_se2_partial","C55_so3_refuted","C55_so3_strict","C55_se3_strict","C55_so3_normalized"],
 "Real arithmetic; shapes and warnings not modelled. Zero rotation rows in float64 excluded (F56). Refuted for SO3/SE3 with the default settings, where nothing is checked (F59).")
claim("C56","partial",["C56_star_refuted"],
 "Refuted: the operator composes in the reverse order (F65).")

claim("C57","partial",["C57_between_jac","C57_local_jac","C57_local_fast_partial","C57_local_fast_refuted","C57_moving_frame_jac_partial","C57_moving_frame_refuted_SE2","C57_moving_frame_refuted_SO3","C57_moving_frame_refuted_SE3","C57_jacobians_defined","C57_local_fast_cache_partial","C57_local_fast_cache_refuted"],
 "Real arithmetic, Vector, SO2, SE2, SO3, SE3; variables move simultaneously along arbitrary curves; residual rotation angle zero or in [small-angle threshold, pi). Between and exact Local are exact. MovingFrameBetween: the derivative is dlog times what is returned, so exact for Vector, SO2 and zero residual, refuted for SE2, SO3, SE3 (F66). Fast Local: exact for commutative groups and at the target, refuted elsewhere; its cache ignores the dtype (F67).")
claim("C58","partial",["C58_double_integrator_jac","C57_jacobians_defined"],
 "Real arithmetic, all five classes of groups, all four variables moving simultaneously; relative rotation angle zero or in [small-angle threshold, pi).")

claim("C59","proved",["C59_reprojection_error","C59_reprojection_jac","C59_reprojection_frame","C59_reprojection_ray"],
 "Real arithmetic, one batch element; a point in the image plane (z = 0) divides by zero and is undefined.")
claim("C60","partial",["C60_sdf_defined","C60_sdf_interpolates","C60_sdf_range","C60_sdf_jac","C60_sdf_lipschitz","C60_collision_error","C60_collision_outside","C60_collision_jac","C60_contact_jac","C60_sdf_update_partial","C60_sdf_update_refuted","C60_field_in_sync","C60_set_aux_var_at"],
 "Real arithmetic, one batch element. Everything except update_data holds for every map; update_data with a map of another shape keeps the old numbers of rows and columns (F68), refuted. The conversion of an occupancy map is C83. Derivatives inside the cells and off the kinks.")
claim("C61","partial",["C61_gp_accepts_iff","C61_gp_weight","C61_gp_weighted_cost","C61_gp_asymmetric_refuted"],
 "Real arithmetic, every dimension, for every factorization routine that reads the lower triangle and fails only if there is no factor (one is constructed in Chol.v). Proved for symmetric Qc_inv; refuted for others: the constructor reads the lower and the weight the upper triangle, so an accepted matrix can make every weighting raise (F70).")
claim("C62","partial",["C62_hinge_error","C62_hinge_jac","C62_hinge_overlap_refuted","C62_hinge_negative_threshold_refuted","C62_nonholonomic_error","C62_nonholonomic_jac"],
 "Real arithmetic. HingeCost proved when the thresholds do not overlap; refuted for thresholds the constructor accepts although they overlap or are negative (F69).")
claim("C63","proved",["C63_pushing_jac","C63_pushing_frame","C63_pushing_balance"],
 "Real arithmetic; all four poses move simultaneously; relative rotation of the object below a half turn.")

claim("C64","proved",["C64_origin","C64_numbering","C64_accepted","C64_forward_kinematics","C64_all_links","C64_exact"],
 "Real arithmetic, one batch element; every tree of revolute, prismatic and fixed joints in every order, every list of links. The rotation of a revolute joint is the code's SO3 exp, exact outside 0 < |q| |axis| < eps (C36). Parsing of the XML is not modelled.")
claim("C65","proved",["C65_turn_scale","C65_turns_exists","C65_jacobians","C65_exact_jacobians"],
 "Real arithmetic, one batch element. Exact derivatives of the exact kinematics wherever the poses are exact; of the poses the code itself computes, up to the factor 4/(4+theta^2) for revolute joints in the near-zero branch of exp (between 1 - theta^2/4 and 1). The jump of exp at the threshold is excluded.")
claim("C66","partial",["C66_named_links","C66_default_link_names","C66_xyz_axis"],
 "UrdfRobotModel with link names proved; refuted for the default link_names=None, which always raises (F71), and for the classes RevoluteJointX/Y/Z, whose constructors pass the id as the axis (F72).")

claim("C67","partial",["C67_implicit_velocity","C67_implicit_exact_partial","C67_implicit_refuted","C67_truncated_velocity","C67_truncated_exact_partial","C67_truncated_step_size_refuted","C67_dlm_limit","C67_dlm_inputs_partial","C67_dlm_inputs_refuted","C67_implicit_solver_fails"],
 "Real arithmetic, one batch element, at an exact stationary point with a unique smooth solution curve, any manifold for IMPLICIT and DLM, additive retractions for TRUNCATED. The derivative each mode returns is characterised exactly; it is the derivative of the solution when the error vanishes at the solution or is affine in the variables (full steps for TRUNCATED). Refuted otherwise: IMPLICIT uses the Gauss-Newton Hessian (F73), TRUNCATED scales by 1-(1-step_size)^k (F74). DLM converges to IMPLICIT's gradient as dlm_epsilon tends to 0, but raises when input_tensors is None or empty (F75). Autograd itself is trusted to return derivatives.")

claim("C68","partial",["C68_lml_unique","C68_lml_forward_partial","C68_lml_forward_any_size","C68_lml_rows","C68_lml_rows_refuted","C68_lml_all","C68_lml_large_refuted","C68_lml_backward","C68_lml_backward_all"],
 "Real arithmetic. Existence, uniqueness and order of the selection and the exact backward for all 0 < N < nx. The forward is proved up to eps/8 for N <= exp 7 (about 1096), any number of scores (branch >= 3, eps < 7) and enough iterations; for N > exp 7 it can raise (F76). Batches: every row is treated as if alone for nx-N < exp 49 at the defaults; in general refuted, the mask of rows to correct has one entry per active row and indexes all rows (F88). For nx <= N the output is the constant 1-1e-5.")
claim("C69","partial",["C69_hard_elite","C69_softmax","C69_soft_elite_partial","C69_soft_elite_any_size","C69_all_elite_refuted","C69_hard_few_refuted","C69_bounds_refuted","C69_mu_dict"],
 "Real arithmetic, one batch element, arbitrary samples. Hard elite exact; n_elite = 1 exact; 2 <= n_elite < n_sample up to the tolerance of LML. Refuted: n_elite >= n_sample shrinks the mean (F77), lb and ub are ignored (F78).")
claim("C70","partial",["C70_dcem_report_partial","C70_dcem_modes","C70_converged_moves_refuted","C70_dcem_raises_refuted"],
 "Arbitrary samplers and errors (nan included). Refuted: an element flagged converged is not frozen and converged_iter is not the iteration at which it was first flagged (F79); a failing iteration raises also without gradients (F80).")

claim("C71","partial",["C71_vmap","C71_vmap_raises","C71_dense","C71_dense_raises","C71_loop","C71_loop_raises","C71_loop_first_row","C71_loop_refuted","C71_rowwise_exists","C71_vector","C71_so2","C71_se2","C71_so3","C71_se3","C71_tmp_kept","C71_tmp_refuted"],
 "Real arithmetic; automatic differentiation is the derivative of the function it is applied to, vmap is the map over rows. VMAP (the default) is proved for all batch sizes; DENSE and LOOP_BATCH equal VMAP for equal sizes and otherwise raise (characterised exactly), except LOOP_BATCH with a first optimization variable of batch 1, which silently returns the Jacobians of the first row (refuted, F81). Temporary variables: refuted after an exception (F82).")

claim("C72","partial",["C72_local","C72_information_form","C72_retract","C72_local_retract","C72_retract_local","C72_inverts_exists","C72_meets","C72_small_angle_refuted"],
 "Real arithmetic; rotation angles that are zero or above the class's near-zero threshold, and less than a half turn. Below the threshold refuted for SE2: the precision is not transported by the velocity of the retraction (F83, a consequence of F52); for SO3 and SE3 below the threshold only the bounds of C36/C37 on the Jacobian are available.")

claim("C73","partial",["C73_new","C73_update","C73_copy","C73_wf","C73_separation","C73_copy_independent","C73_history","C73_meets","C73_update_atomic_refuted","C73_update_alias_refuted","C73_sharing_refuted","C73_batch_refuted"],
 "Proved: exact success conditions and effects of the constructor, of update (arguments not aliased with the Gaussian's own variables at other positions) and of copy; copies are independent under every later history; consistency of mean and precision over all histories in which the Gaussian's first variable is only replaced by its own successful updates. Refuted: a refused update keeps the new means (F84), own variables passed in another order (F85), shared variables (F86), batch sizes of the other variables (F87). Entries are real numbers (no nan).")

claim("C74","partial",["C74_step_descends","C74_stationary_stays","C74_dogleg_descends","C74_affine_one_step","C74_affine_decrease","C74_linear_iterations","C74_linear_optimizer","C74_full_step_refuted","C74_descends_example","C74_linear_example"],
 "Real arithmetic, exact solvers. Descent for all sufficiently small step sizes, exact one-step and partial-step laws for affine errors. Refuted for full steps: Gauss-Newton with step_size 1 increases the error and cycles on x^3-2x+2 (F89; the optimizers other than adaptive LM and Dogleg have no step control). 'Stays' needs an injective damped matrix.")
claim("C75","partial",["C75_check_singular","C75_unchecked","C75_unique","C75_per_element_refuted","C75_dtype_refuted","C75_damped_refuted","C75_example"],
 "Real arithmetic; the singularity test of torch.lu is any function, exact where stated. Proved for common damping, or no singular element, with data of torch's default dtype. Refuted: per-element damping with a singular element raises (F90), float64 data under the default float32 raises (F91), and a singular matrix is given zero although its damped system is solvable (F92).")
claim("C76","proved",["C76_solves","C76_succeeds","C76_blocks_stored","C76_objective","C76_add_M","C76_storage_exists","C76_library_exists"],
 "Real arithmetic. The BaSpaCho library is a parameter: any elimination order and storage meeting layout_ok, any factorization that solves (solver_sound) the symmetric system that its own data represent; storage and library exist for every structure. Both the CPU loops and every interleaving of the CUDA threads. The allocation limits of the GPU are not modelled.")
claim("C77","partial",["C77_reset_partial","C77_reset_refuted"],
 "Proved for histories without a failed reset. Refuted in general: reset records the new device before it can raise, so after a failed reset a second one silently does nothing (F93).")
claim("C78","proved",["C78_left_act_so3","C78_left_act_se3","C78_left_project_so3","C78_left_project_se3","C78_left_act_returns","C78_default_dim_out_raises"],
 "Real arithmetic; any number and sizes of dimensions (also zero). Autograd's reduction of a returned gradient to the shape of the input (sum_to_size) is modelled. The derivative is stated exactly: the operators are bilinear, so the change of the result is e(r1+r2)+e^2 r12 and the gradients are the adjoint of r1+r2. The exact set of accepted shapes is stated for SO3.left_act, the operator that the others call. The value checks of torchlie (off by default) are not modelled.")
claim("C79","partial",["C79_samples","C79_moments","C79_no_solver","C79_refuses_refuted","C79_batch_refuted","C79_mean_refuted","C79_standard_exists"],
 "Real arithmetic; torch.normal is any noise with zero mean and unit covariance under a linear expectation (that the result is normal, being an affine image of normal noise, is not stated). Proved for vectors of the default dtype; for other variables the tangent vectors. Refuted: any other dtype, the sparse linearizations and variables whose tensor has not dof() columns raise (F95, F96); the noise is shared by the batch (F97); the samples are centred at the variables plus the step of the last linearization, which the optimizer has taken already (F98).")

claim("C80","proved",["C80_rand_valid","C80_randn_valid","C80_identity","C80_so3_rand_onto","C80_so3_rand_two_to_one","C80_so3_rand_uniform","C80_so2_rand_uniform","C80_rand_draws","C80_rand_sizes","C80_requires_grad_refuted"],
 "torch.rand and torch.randn are the numbers they return; uniformity of SO3.rand is proved as: reached iff the x axis is not sent to its opposite, exactly two preimages, orthogonal velocities of constant volume for the bi-invariant inner product (the change-of-variables theorem for measures itself is not formalised). Finding F99: SE2.rand/randn(requires_grad=True) always raise and SO2.rand/randn return a non-leaf")

claim("C81","partial",["C81_check","C81_success","C81_named","C81_row_so3","C81_row_se3","C81_row_se2","C81_row_so2","C81_row_vec","C81_fill","C81_restore_refuted","C81_nan_refuted","C81_so2_refuted"],
 "the acceptance criterion, the independence from the user's values and the meaning of the compared number are proved for all cost functions and random numbers; three parts of the property are false of the code: after a failed check nothing is restored (F100), a nan entry hides any error (F101), SO2 variables are filled with non-rotations so that right Jacobians can be reported (F102). Infinities and exceptions inside the restoring code are not modelled")

claim("C82","partial",["C82_call_is_a_function","C82_history_independent","C82_warm_start","C82_returned_is_held","C82_history_independent_refuted"],
 "proved for every history, also with calls that raise, for LUCudaSparseSolver with auto_reset (the default); with auto_reset=False the batch size of an earlier call persists and the property is refuted (F103). Exact arithmetic, numerical kernels are arbitrary functions of the system they are given; the vectorization cache is the subject of C13, BaSpaCho (C77), DCEM (C69) and gradients are not part of this model, exceptions that depend on the arguments only are raised before the loop instead of inside it, and a tensor of batch size one is expanded at the end of the call")

claim("C83","partial",["C83_centres","C83_sign","C83_empty","C83_clearance","C83_neighbours","C83_safe","C83_lipschitz","C83_batch","C83_one_source","C83_positive_is_free_refuted"],
 "real arithmetic; scipy's distance transform is its documentation (distance to the nearest zero cell, unspecified if there is none, so maps without a free cell are excluded). Refuted: a positive value does not exclude that the point is inside an occupied cell, near its corners (F104). dtypes and devices are not modelled")

claim("C84","partial",["C84_read","C84_indexing","C84_round_trip","C84_dataset","C84_batches","C84_indexing_refuted","C84_blank_line_refuted","C84_2d_refuted","C84_negative_batch_refuted","C84_weights_refuted"],
 "lines are lists of tokens and printing a number and parsing it back is exact; real arithmetic. Round trip where to_quaternion is defined (C50). Refuted: ids with gaps index other poses, a blank line raises, no 2D file with an edge can be read, negative batch indices are accepted, weights with a row per graph are neither cut nor written per graph (F105-F109)")

claim("C85","partial",["C85_synthetic","C85_histogram","C85_zero_noise_refuted"],
 "random draws are inputs (uniform numbers in [0,1], loop indices as numpy.random.randint gives them, outliers any rigid motions); real arithmetic. Refuted: noise level zero raises (F110); the histogram of no errors raises")

claim("C86","partial",["C86_camera_params","C86_file","C86_file_sizes","C86_projection","C86_projection_error","C86_small_rotation","C86_camera","C86_perturbed","C86_synthetic","C86_histogram","C86_histogram_range","C86_negative_index","C86_negative_index_range","C86_soft_losses","C86_ground_truth_refuted","C86_small_rotation_refuted","C86_one_camera_refuted","C86_last_point_refuted"],
 "Camera parameters, BAL files, projection, synthetic problems, histogram and soft losses as stated (real arithmetic, exact printing). Refuted parts: load_from_file swaps the ground truth cameras and points and the result cannot be saved with its ground truth; random_small_quaternion(max_degrees) rotates by up to twice max_degrees; one camera is a ZeroDivisionError; with spans shorter than all points the last point is seen by no camera.")

claim("C87","partial",["C87_arith", "C87_arith_raises", "C87_unary", "C87_products", "C87_norm", "C87_cat", "C87_cat_two", "C87_cat_raises", "C87_construct", "C87_vector_group", "C87_vector_retract", "C87_exp_log", "C87_project", "C87_rotate", "C87_point_checks", "C87_transform", "C87_so2_group", "C87_se2_group", "C87_rot_trans", "C87_group_raises", "C87_dof_refuted", "C87_norm_refuted", "C87_compose_jac_batch_refuted", "C87_rot_trans_refuted", "C87_empty_batch_refuted"],
 "Vectors, points, SO2 and SE2 on batches as stated, item by item against the one-item model of C34/C35. Refuted parts: a vector with one component is silently added to all components of the other; norm() without dim mixes the items of the batch; the Jacobians of compose and between do not have the batch size of the result; one rotation with a batch of translations is refused by update_from_rot_and_trans although the converse works; with an empty batch of points and one pose the Jacobians raise. SO3/SE3 batches are torchlie's (C78), exp_map/log_map of SE2 on batches are not modelled.")

claim("C88","partial",["C88_jacobian_entries", "C88_jacobian_limit", "C88_jacobian_vector_bound", "C88_jacobian_of_between", "C88_jacobian_no_args", "C88_jacobian_dim_zero", "C88_jacobian_wrong_dim", "C88_jacobian_rows_refuted", "C88_grad_entries", "C88_grad_bound", "C88_grad_quadratic", "C88_grad_not_a_vector", "C88_grad_integers_refuted"],
 "As stated, in exact reals (the round-off error, which grows as the step shrinks, is not modelled). Refuted parts: a function with values in a 1-dimensional group gets its row copied into as many rows as were asked for (without function_dim: dof rows) instead of being refused; numeric_grad on an integer array returns zeros whatever the function.")

claim("C89","partial",["C89_shapes", "C89_type_is_fixed", "C89_own_updates_only", "C89_unshared_is_private", "C89_results_own_memory", "C89_raise_changes_nothing", "C89_compose", "C89_euclidean_context", "C89_ltypes_do_not_mix", "C89_refusals", "C89_item_unbatched", "C89_as_lietensor", "C89_write_is_seen", "C89_from_tensor_shares", "C89_view_shares", "C89_item", "C89_set_shares", "C89_add", "C89_mark_is_permanent", "C89_mark_origin", "C89_values", "C89_cat", "C89_slice", "C89_times_is_compose_refuted", "C89_update_reaches_tensor_refuted", "C89_only_gradients_refuted", "C89_as_checks_ltype_refuted"],
 "As stated. The numbers computed by the functional library are a parameter (C36-C43, C54 prove them); torch.Tensor.set_ is taken to act on self. Refuted parts: g1 * g2 is g2.compose(g1), not g1.compose(g2) as README.md asserts; an update of from_tensor(x) does not reach x although they share memory; an ordinary tensor that once took part in an operation with a gradient is accepted by add_ for ever; as_lietensor(x, ltype) ignores ltype when x is a LieTensor.")

claim("C90","partial",["C90_accepts", "C90_cost_functions", "C90_boundary", "C90_steps", "C90_optim_vars", "C90_keys", "C90_documented_keys_refuted", "C90_total_squared_errors", "C90_copy", "C90_copy_succeeds", "C90_copy_same_costs_refuted", "C90_copy_zero_weight_refuted", "C90_straight_line", "C90_straight_line_ends", "C90_straight_line_gp", "C90_straight_line_se2", "C90_straight_line_se2_zero_iff", "C90_get_trajectory", "C90_get_trajectory_raises", "C90_trajectory_round_trip", "C90_values_round_trip", "C90_trajectory_dtype_refuted", "C90_positive_vel", "C90_positive_vel_refuted", "C90_positive_vel_conflict", "C90_mean_trajectory", "C90_mean_trajectory_ends", "C90_bend_is_distance_refuted", "C90_mean_velocity", "C90_columns", "C90_sample_partial", "C90_sample_refuted", "C90_sample_ignores_obstacles_refuted", "C90_xy_difference", "C90_xy_types_refuted", "C90_extra_costs_default_dtype_refuted"],
 "All parts as stated except: copy() drops nonholonomic_w and positive_vel_w and ignores collision_weight=0.0, so the auxiliary planner of the initial trajectory model does not ignore obstacles; the sample is added in the order of the linear system, so from two steps on pose_t receives the rows of another time; on SE2 the straight line has zero Gaussian process cost only if the start angle is 0 (or start = goal); get_trajectory converts to torch's default dtype; the positive velocity cost wants a velocity of at least 1; the documented keys collision_w_0.. do not exist. The optimizer run by forward and the networks are not modelled here.")

claim("C91","partial",["C91_sequential", "C91_inactive", "C91_nested_deactivated", "C91_nested_refuted", "C91_nested_block_deactivated_refuted", "C91_unfinished_deactivated_refuted", "C91_bare_reuses_name_refuted", "C91_activate_inside_refuted", "C91_end_refuted"],
 "Sequential regions and inactive timers as stated, for every program and clock (cpu device; integer nanoseconds). Refuted for nested regions: the outer measurement is lost and the inner name gets a wrong one; a nested deactivated block renames the outer region; a deactivated start that is not ended drops the next measurement; with timer: reuses the previous name; activating inside a region raises or records a stale time; end() twice records twice.")

claim("C92","partial",["C92_matrix", "C92_csr", "C92_terminates_iff", "C92_fill", "C92_one_row_refuted", "C92_first_row_refuted", "C92_split", "C92_split_terminates", "C92_split_zero_refuted", "C92_split_last_refuted"],
 "As stated for two rows or more and fill <= 1. Refuted: with one row the minimum per column is not enforced; the first row has weight 0 and gets no entry from the first step unless k >= rows; for fill*rows*cols >= rows*cols + 1 the function never returns; split_into_param_sizes(n, 0, 1) never returns and the last size may be below lo. fill*rows*cols is a real number here (no float rounding).")

claim("C93","partial",["C93_history", "C93_accepts", "C93_get_eps", "C93_asked_exist", "C93_reset", "C93_reset_flags_refuted", "C93_so2_norm_refuted", "C93_atomic_refuted", "C93_d_near_zero_refuted", "C93_methods_refuted"],
 "Histories, get_eps, acceptance and reset of the tolerances as stated, for calls that do not name the methods. Refuted: a call that raises keeps the assignments before the unknown name; reset does not restore the two torchlie flags nor theseus' so2_norm_eps_float64 (initially 0, F56); theseus does not refer so3_d_near_zero to torchlie; get_eps and reset can be overwritten like options.")

claim("C94","partial",["C94_unary", "C94_binary", "C94_refused", "C94_unary_jop_refuted", "C94_unary_jop_renamed", "C94_built", "C94_lie_maps"],
 "As stated for op(x, jacobians=...) of every operator and for jcompose, jtransform, juntransform, for implementations whose two versions agree (shown for exp and log of both groups). Refuted for the unary j-functions: SO3.jexp, jlog, jinv, jquaternion_to_rotation and SE3.jexp, jlog, jinv raise AttributeError for every argument (module.name instead of module.NAME).")

claim("C95","partial",["C95_costs", "C95_optim_vars", "C95_aux_vars", "C95_default_dtype_refuted", "C95_step_zero", "C95_inputs_fail", "C95_single_episode", "C95_measurements", "C95_batch_nn_refuted", "C95_batch_oracle_refuted", "C95_values", "C95_keys", "C95_oracle_consistent", "C95_read_pose", "C95_read_back", "C95_read_values", "C95_modes_refuted"],
 "As stated for the objective, the names and, for batches of one episode, the measurements. Refuted for two or more episodes: with the network every episode gets one and the same measurement, that of the pair number k/B and the episode k mod B; the oracle mixes pairs and episodes too (exact rows in C95_measurements). Refuted: torch's default dtype float32, mode weights_only, episodes too short for any pair.")

claim("C96","partial",["C96_loaded", "C96_items", "C96_rows_once", "C96_max_episodes", "C96_load_ok", "C96_single_row_refuted", "C96_partition", "C96_validation_size", "C96_small_training", "C96_batches", "C96_too_large", "C96_negative_batch_refuted", "C96_steps", "C96_max_split_refuted"],
 "As stated. Refuted: a file whose first episode has a single row raises TypeError instead of skipping it; negative batch numbers are accepted (-1 gives an empty batch); with split_episodes max_episodes can be exceeded (documented in the configuration). With at most two episodes nothing is left for training.")

claim("C97","partial",["C97_copy_weight", "C97_copy", "C97_gp_copy_class", "C97_make_keeps_names", "C97_calib_names", "C97_csquare_name", "C97_scale_row", "C97_diagonal_middle", "C97_refused_but_changed", "C97_xy_accepts", "C97_between_accepts", "C97_hinge_copy_raises", "C97_shared_variable_split"],
 "As stated, for the thirteen cost functions and three weights. Refuted parts: GPMotionModel's copy is a DoubleIntegrator; a HingeCost whose limits crossed by an update cannot be copied; a variable passed twice is split in two of one name. Further: names the constructors give, in-place reshaping, arguments accepted. Not here: AutoDiffCostFunction and the robust wrapper; re-checking of SO2/SE2 tensors when copied.")

claim("C98","partial",["C98_returns", "C98_values", "C98_jacobians", "C98_jacobians_refuse", "C98_gradient", "C98_untransform_gradient_refuted", "C98_methods", "C98_rotate_column_refuted", "C98_methods_refuse"],
 "Real arithmetic; the checks of group values are off (the default). Refuted: the backward of SE3 untransform raises when the points are broadcast, although the forward returns (F155); SO3.rotate and unrotate never take the (m, 3, 1) points that their check accepts (F156). Tensor.view is modelled by row-major order; strides are not modelled.")

claim("C99","partial",["C99_mode", "C99_autodiff_accepts", "C99_autodiff_made", "C99_internal_refuted", "C99_wrapper", "C99_gnc", "C99_nested_refuted", "C99_own_name_refuted", "C99_copy_autodiff", "C99_copy_options_refuted", "C99_copy_robust", "C99_copy_gnc", "C99_to", "C99_wrapped_to_refuted"],
 "Refuted parts: a variable named like an attribute assigned later is accepted and replaced (F157); wrappers overwrite attributes named loss, cost_function or flatten_dims, and cannot wrap a wrapper (F158); to() of a wrapper leaves the scratch variables of an AutoDiff base behind, so jacobians() raises (F159); a copy has the default autograd options (F28). Standard cost functions stand for any class of C97; devices and shapes of tensors are not modelled here.")

claim("C100","partial",["C100_plain", "C100_one_of", "C100_tensor", "C100_vector", "C100_shorthand", "C100_names", "C100_random", "C100_random_sizes", "C100_random_se2_refuted", "C100_set_uncounted_refuted", "C100_set_rot_trans", "C100_set_rot_trans_refuses", "C100_names_given_refuted", "C100_se3_default_refuted", "C100_dtypes", "C100_dtypes_plain"],
 "Refuted parts: SE2.rand and SE2.randn with requires_grad=True raise (F161); SE2.update_from_x_y_theta and the update_from_rot_and_trans methods replace the value without counting an update (F162); a name the user gives may equal a later default name (F163); SE3 from x_y_z_quaternion needs a supported default dtype (F164). The numeric content (group test, normalize, cos, sin, the rotation of a quaternion) is arbitrary here and the subject of C34-C38, C50, C52, C55. Not modelled: devices, vmap, the texts of messages, empty batches under checks.")

claim("C101","partial",["C101_backward_mode", "C101_backward_mode_else", "C101_set_params", "C101_set_params_unknown", "C101_set_params_atomic_refuted", "C101_set_params_update_refuted", "C101_accepted", "C101_made", "C101_metric", "C101_ordering", "C101_linearization_dense", "C101_linearization_sparse_refuted", "C101_failed_vectorizes_refuted", "C101_not_vectorized", "C101_unknown_option_refuted", "C101_unknown_solver_option_refuted", "C101_unknown_solver_option_dense", "C101_lm_options", "C101_lm_options_refuted"],
 "Refuted parts: sparse solvers raise AttributeError for a wrong linearization class (F165); unsupported damping options of LevenbergMarquardt raise nothing without gradients (F166); misspelled options are ignored by optimizers and sparse solvers (F167); set_params is not atomic and accepts the name update (F168); a failed construction leaves the objective vectorized (F169). Not modelled: positional arguments, user subclasses, devices, attribute names with leading underscores in set_params.")

claim("C102","partial",["C102_unique", "C102_compares", "C102_refuses", "C102_order", "C102_suffix", "C102_import", "C102_prerelease_refuted"],
 "Refuted part: a pre-release is not less than its release (F170). Not modelled: digits outside ASCII, the limit of 4300 digits of int.")

claim("C103","partial",["C103_so2", "C103_so2_unchecked", "C103_so2_warns", "C103_so2_inverse", "C103_se2", "C103_se2_inverse", "C103_empty_refuted", "C103_se2_last_row_refuted", "C103_se2_context_refuted", "C103_relative_refuted", "C103_so3", "C103_so3_hat", "C103_so3_warns", "C103_so3_inverse", "C103_so3_checks_refuted"],
 "Refuted parts: an empty batch is refused while checks are enabled (F171); SE2.vee ignores the first two entries of the last row (F172) and the check context (F173); skew-symmetry is tested relative to the size of the entry (F174); enabling the checks of theseus checks nothing in SO3.vee while torchlie's own checks are off (F175). Entries are rationals and comparisons exact; nan, infinities and the kinds of exceptions are not modelled.")

if __name__ == "__main__":
    here = os.path.dirname(os.path.abspath(__file__))
    json.dump({"claims":[C[k] for k in sorted(C)]}, open(os.path.join(here,"..","MANIFEST.json"),"w"), indent=1)
    print(len(C), "claims")
