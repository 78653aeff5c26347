# Print Assumptions for every theorem of MANIFEST.json

Generated by tools/assumptions.py.

## Closed under the global context (no axioms)

`Obj_props.C01_registry_matches`, `Obj_props.C01_add_accepted_iff_consistent`, `Obj_props.C01_erase_never_raises`, `Obj_props.C02_readd_noop_refuted`, `Obj_props.C02_readd_partial`, `Obj_props.C03_one_object_per_name_partial`, `Obj_props.C03_one_object_per_name_refuted`, `Obj_props.C04_version_strictly_increases`, `Obj_props.C04_stale_optimizer_never_runs`, `Upd_props.C05_batch_size_resolution`, `Upd_props.C05_update_sets_batch_size`, `Upd_props.C05_order_independent`, `Upd_props.C05_empty_batch_rejected`, `Upd_props.C06_masked_rows`, `Upd_props.C06_unmasked_replaces`, `Upd_props.C06_incompatible_rejected`, `Upd_props.C06_update_exactly_named`, `Upd_props.C06_unnamed_untouched_always`, `Upd_props.C07_error_reverts_partial`, `Upd_props.C07_error_reverts_refuted`, `Upd_props.C07_revert_can_raise_refuted`, `Upd_props.C08_error_order`, `Upd_props.C08_error_length_is_dim`, `Upd_props.C08_mixed_batch_error_raises_refuted`, `Vec_props.C08_vectorized_order_refuted`, `Copy_props.C09_copy_succeeds_iff`, `Copy_props.C09_copy_isomorphic`, `Copy_props.C09_update_tracks_partial`, `Copy_props.C09_robust_refuted`, `Copy_props.C09_shared_weight_refuted`, `Copy_props.C09_mixed_refuted`, `Ord_props.C10_complete_iff_permutation`, `Ord_props.C10_index_is_position_partial`, `Ord_props.C10_default_order`, `Ord_props.C10_index_is_position_refuted`, `Ord_props.C10_foreign_variable_accepted_refuted`, `Ctor_main.C100_plain`, `Ctor_main.C100_one_of`, `Ctor_main.C100_tensor`, `Ctor_main.C100_vector`, `Ctor_main.C100_shorthand`, `Ctor_names.C100_names`, `Ctor_rand.C100_random`, `Ctor_rand.C100_random_sizes`, `Ctor_rand.C100_random_se2_refuted`, `Ctor_rand.C100_set_uncounted_refuted`, `Ctor_rand.C100_set_rot_trans`, `Ctor_rand.C100_set_rot_trans_refuses`, `Ctor_rand.C100_names_given_refuted`, `Ctor_rand.C100_se3_default_refuted`, `Vec_props.C11_vectorized_equals_own`, `Vec_props.C11_vectorized_equals_own_general`, `Vec_props.C11_singleton_not_broadcast_refuted`, `Vec_props.C11_schema_must_determine_function_refuted`, `Vec_props.C12_masking_exact`, `Vec_props.C12_masked_rows`, `Vec_props.C12_variables_restored`, `Vec_props.C12_mixed_batch_leaves_masked_refuted`, `Stale_props.C13_never_stale_partial`, `Stale_props.C13_update_makes_fresh`, `Stale_props.C13_gradients_kept`, `Stale_props.C13_item_assignment_refuted`, `Stale_props.C13_to_refuted`, `Stale_props.C13_raising_run_refuted`, `Ret_props.C14_vectorized_retract_equals_sequential`, `Ret_props.C14_batch_one_variable_refuted`, `NL_props.C15_loop_terminates`, `NL_props.C15_no_grad_never_raises`, `NL_props.C16_status_meaningful`, `NL_flag.C16_flag_meaning`, `NL_flag.C16_flag_not_finite`, `NL_props.C17_converged_frozen`, `NL_props.C17_history_constant`, `NL_props.C17_zero_tolerance_refuted`, `NL_props.C18_best_solution_partial`, `NL_props.C18_best_iter_ambiguous_refuted`, `NL_props.C18_nan_refuted`, `NL_props.C19_merged_info_partial`, `NL_props.C19_concatenation_refuted`, `NL_props.C19_best_iter_refuted`, `NL_props.C20_iteration_split`, `NL_props.C20_budget_exceeded_refuted`, `LM_props.C21_damping_in_range`, `LM_props.C21_damping_direction`, `LM_props.C21_every_step`, `LM_props.C22_lm_accepted_decreases`, `LM_props.C22_lm_history`, `LM_props.C22_tr_accepted_not_larger`, `LM_props.C22_tr_history`, `LM_props.C22_gn_step_decreases_model`, `LM_props.C22_nan_accepted_refuted`, `LM_props.C22_example`, `LM_props.C22_history_example`, `LM_props.C23_radius_update`, `LM_props.C23_defaults_valid`, `LM_props.C23_applied_iff_greater_refuted`, `LU_props.C25_never_silently_wrong`, `LU_props.C25_fewer_than_K_safe`, `LU_props.C25_raises_exactly`, `LU_props.C25_optimize_backward_works`, `LU_props.C25_two_loops_backward_works`, `LU_props.C25_zero_contexts_refuted`, `LU_props.C25_example`, `Lin_props.C26_rows_and_columns`, `Lin_props.C26_csr_well_formed`, `Ctx_props.C39_restored_partial`, `Ctx_props.C39_class_managers`, `Ctx_props.C39_exception_keeps_settings`, `Ctx_props.C39_exception_refuted`, `Ctx_props.C39_optimize_refuted`, `Ctx_props.C39_reentrant_refuted`, `Ctx_props.C39_thread_isolation`, `Ctx_props.C39_threads`, `Lgt_props.C40_add_plain_refuted`, `Obj_props.C41_add_atomic_refuted`, `Obj_props.C41_raising_add_partial`, `Obj_props.C42_weight_with_optim_vars_rejected_refuted`, `Obj_props.C42_weight_with_optim_vars_rejected_partial`, `NL_props.C43_converged_means_step_applied_refuted`, `NL_batch.C44_batch_independence_partial`, `NL_batch.C44_batch_independence_refuted`, `Csr_props.C46_bisect_index`, `Lgt_props.C55_unchecked`, `Emb_props.C57_local_fast_cache_partial`, `Emb_props.C57_local_fast_cache_refuted`, `Sdf_props.C60_field_in_sync`, `Sdf_props.C60_set_aux_var_at`, `Kin_props2.C66_xyz_axis`, `Bwd_refute.C67_dlm_inputs_partial`, `Bwd_refute.C67_dlm_inputs_refuted`, `Cem_props.C69_mu_dict`, `Dcem_props.C70_dcem_report_partial`, `Dcem_props.C70_dcem_modes`, `Dcem_props.C70_converged_moves_refuted`, `Dcem_props.C70_dcem_raises_refuted`, `Ad_cases.C71_rowwise_exists`, `Ad_tmp.C71_tmp_kept`, `Ad_tmp.C71_tmp_refuted`, `Bas_ex.C76_storage_exists`, `Bas_ex.C77_reset_partial`, `Bas_ex.C77_reset_refuted`, `Samp_ex.C79_no_solver`, `Sess_main.C82_call_is_a_function`, `Sess_main.C82_history_independent`, `Sess_main.C82_warm_start`, `Sess_main.C82_returned_is_held`, `Sess_ex.C82_history_independent_refuted`, `G2o_data.C84_dataset`, `G2o_data.C84_batches`, `G2o_data.C84_negative_batch_refuted`, `Ba_main.C86_one_camera_refuted`, `Tb_vec.C87_construct`, `Tb_vec.C87_project`, `Tb_group.C87_rot_trans`, `Tb_group.C87_rot_trans_refuted`, `Mp_init.C90_xy_types_refuted`, `Tmr_props.C91_sequential`, `Tmr_props.C91_inactive`, `Tmr_props.C91_nested_deactivated`, `Tmr_props.C91_nested_refuted`, `Tmr_props.C91_nested_block_deactivated_refuted`, `Tmr_props.C91_unfinished_deactivated_refuted`, `Tmr_props.C91_bare_reuses_name_refuted`, `Tmr_props.C91_activate_inside_refuted`, `Tmr_props.C91_end_refuted`, `Rsm_props.C92_matrix`, `Rsm_props.C92_csr`, `Rsm_props.C92_terminates_iff`, `Rsm_props.C92_one_row_refuted`, `Rsm_props.C92_first_row_refuted`, `Rsm_props.C92_split`, `Rsm_props.C92_split_terminates`, `Rsm_props.C92_split_zero_refuted`, `Rsm_props.C92_split_last_refuted`, `Gp_props.C93_history`, `Gp_props.C93_accepts`, `Gp_props.C93_get_eps`, `Gp_props.C93_asked_exist`, `Gp_props.C93_reset`, `Gp_props.C93_reset_flags_refuted`, `Gp_props.C93_so2_norm_refuted`, `Gp_props.C93_atomic_refuted`, `Gp_props.C93_d_near_zero_refuted`, `Gp_props.C93_methods_refuted`, `Fn_props.C94_unary`, `Fn_props.C94_binary`, `Fn_props.C94_refused`, `Fn_props.C94_unary_jop_refuted`, `Fn_props.C94_unary_jop_renamed`, `Fn_props.C94_built`, `Tac_main.C95_modes_refuted`, `Tds_props.C96_loaded`, `Tds_props.C96_items`, `Tds_props.C96_rows_once`, `Tds_props.C96_max_episodes`, `Tds_main.C96_load_ok`, `Tds_main.C96_single_row_refuted`, `Tds_main.C96_batches`, `Tds_main.C96_too_large`, `Tds_main.C96_negative_batch_refuted`, `Tds_main.C96_max_split_refuted`, `Acf_main.C99_mode`, `Acf_main.C99_autodiff_accepts`, `Acf_main.C99_autodiff_made`, `Acf_main.C99_internal_refuted`, `Acf_main.C99_wrapper`, `Acf_main.C99_gnc`, `Acf_main.C99_nested_refuted`, `Acf_main.C99_own_name_refuted`, `Acf_main.C99_copy_autodiff`, `Acf_main.C99_copy_options_refuted`, `Acf_main.C99_copy_robust`, `Acf_main.C99_copy_gnc`, `Acf_main.C99_to`, `Acf_main.C99_wrapped_to_refuted`, `Ctor_dt.C100_dtypes`, `Ctor_dt.C100_dtypes_plain`, `Opt_main.C101_backward_mode`, `Opt_main.C101_backward_mode_else`, `Opt_main.C101_set_params`, `Opt_main.C101_set_params_unknown`, `Opt_main.C101_set_params_atomic_refuted`, `Opt_main.C101_set_params_update_refuted`, `Opt_main.C101_accepted`, `Opt_main.C101_made`, `Opt_ref.C101_metric`, `Opt_ref.C101_ordering`, `Opt_ref.C101_linearization_dense`, `Opt_ref.C101_linearization_sparse_refuted`, `Opt_ref.C101_failed_vectorizes_refuted`, `Opt_ref.C101_not_vectorized`, `Opt_ref.C101_unknown_option_refuted`, `Opt_ref.C101_unknown_solver_option_refuted`, `Opt_ref.C101_unknown_solver_option_dense`, `Opt_ref.C101_lm_options`, `Opt_ref.C101_lm_options_refuted`, `Vst_props.C102_unique`, `Vst_props.C102_compares`, `Vst_props.C102_refuses`, `Vst_props.C102_order`, `Vst_props.C102_suffix`, `Vst_props.C102_import`, `Vst_props.C102_prerelease_refuted`, `Hv_props.C103_so2`, `Hv_props.C103_so2_unchecked`, `Hv_props.C103_so2_warns`, `Hv_props.C103_so2_inverse`, `Hv_props.C103_se2`, `Hv_props.C103_se2_inverse`, `Hv_props.C103_empty_refuted`, `Hv_props.C103_se2_last_row_refuted`, `Hv_props.C103_se2_context_refuted`, `Hv_props.C103_relative_refuted`, `Hvt_props.C103_so3`, `Hvt_props.C103_so3_hat`, `Hvt_props.C103_so3_warns`, `Hvt_props.C103_so3_inverse`, `Hvt_props.C103_so3_checks_refuted`

## `ClassicalDedekindReals.sig_forall_dec`

`Lin_props.C26_unordered_variable_raises`, `Lin_props.C26_example`, `Damp_props.C28_shapes_refuted`, `SE2_group.C34_hat_vee`, `Sdf_props.C60_sdf_update_partial`, `Bwd_refute.C67_implicit_solver_fails`, `Sing_props.C75_check_singular`, `Sing_props.C75_unchecked`, `Sing_props.C75_per_element_refuted`, `Sing_props.C75_dtype_refuted`, `Act_raise.C78_default_dim_out_raises`, `Tb_vec.C87_cat`, `Tb_vec.C87_cat_two`, `Tb_vec.C87_cat_raises`, `Tb_vec.C87_exp_log`, `Tb_planar.C87_rotate`, `Tb_planar.C87_point_checks`, `Tb_planar.C87_transform`, `Tb_vec.C87_dof_refuted`, `Tb_planar.C87_empty_batch_refuted`, `Ltt_main.C89_shapes`, `Ltt_main.C89_type_is_fixed`, `Ltt_main.C89_own_updates_only`, `Ltt_main.C89_unshared_is_private`, `Ltt_more.C89_results_own_memory`, `Ltt_more.C89_raise_changes_nothing`, `Ltt_more.C89_compose`, `Ltt_more.C89_euclidean_context`, `Ltt_more.C89_ltypes_do_not_mix`, `Ltt_more.C89_refusals`, `Ltt_more.C89_item_unbatched`, `Ltt_more.C89_as_lietensor`, `Ltt_share.C89_write_is_seen`, `Ltt_share.C89_from_tensor_shares`, `Ltt_share.C89_view_shares`, `Ltt_share.C89_item`, `Ltt_share.C89_set_shares`, `Ltt_share.C89_add`, `Ltt_share.C89_mark_is_permanent`, `Ltt_share.C89_mark_origin`, `Ltt_values.C89_values`, `Ltt_values.C89_cat`, `Ltt_values.C89_slice`, `Ltt_ex.C89_only_gradients_refuted`, `Ltt_ex.C89_as_checks_ltype_refuted`, `Mp_traj.C90_get_trajectory`, `Mp_traj.C90_get_trajectory_raises`, `Mp_traj.C90_trajectory_round_trip`, `Mp_traj.C90_values_round_trip`, `Mp_traj.C90_trajectory_dtype_refuted`, `Grp_main.C98_jacobians_refuse`, `Grp_main.C98_rotate_column_refuted`, `Grp_main.C98_methods_refuse`

## `ClassicalDedekindReals.sig_forall_dec`, `ClassicalDedekindReals.sig_not_dec`, `Classical_Prop.classic`, `FunctionalExtensionality.functional_extensionality_dep`

`Rob_props.C31_value`, `Rob_props.C31_value_flat_partial`, `Rob_props.C32_gradient`, `Rob_props.C32_gradient_flat_partial`, `Rob_props.C33_evaluate_is_loss`, `Rob_props.C33_linearize_is_derivative`, `Rob_props.C33_derivative`, `Rob_props.C33_shape`, `Rob_props.C33_evaluate_shape_partial`, `SE2_group.C34_so2_exp_log`, `SE2_exp.C34_retract_local`, `SE2_exp.C34_local_retract`, `SE2_exp.C35_exp_is_exponential`, `SE2_exp.C35_exp_small_angle`, `SE2_exp.C35_log_exp`, `SE2_exp.C35_exp_log`, `SE2_exp.C35_log_exp_small_angle`, `SE2_exp.C35_exp_log_small_angle`, `SE2_exp.C35_log_half_turn_refuted`, `SE2_jac.C35_exp_jac`, `SE2_jac.C35_exp_jac_small_refuted`, `SE2_jac.C35_exp_jac_small_partial`, `SE2_jac.C35_log_jac`, `SE2_jac.C35_log_jac_total`, `SE2_norm.C35_log_jac_small_angle`, `SO3_exp.C36_exp_is_exponential`, `SO3_exp.C36_exp_small_angle`, `SO3_log.C36_log_is_logarithm`, `SO3_log.C36_log_defined`, `SO3_log.C36_log_half_turn_refuted`, `SO3_log.C36_log_exp`, `SO3_log.C36_log_exp_small_angle`, `Lgt_props.C40_so2_descent`, `Lgt_props.C40_se2_descent`, `Lgt_props.C40_so3_descent`, `Lgt_props.C40_se3_descent`, `SE2_jac.C48_retract_velocity`, `SE2_jac.C48_compose_jac`, `SE2_jac.C48_inverse_jac`, `SE2_jac.C48_between_jac`, `SE2_jac.C48_transform_from_jac`, `SE2_jac.C48_transform_to_jac`, `SE2_jac.C48_xy_jac`, `SE2_jac.C48_theta_jac`, `SE2_jac.C48_local_jac`, `SE2_jac.C48_so2_jacobians`, `SE2_jac.C48_so2_log_local_jac`, `SE2_norm.C49_project`, `SE2_norm.C49_so2_project`, `SO3_quatjac.C36_quaternion_jac`, `SO3_log.C36_to_quaternion`, `SO3_ops.C36_retract_velocity`, `SO3_jexp.C36_exp_jac`, `SO3_jlog.C36_log_jac`, `SO3_jlog.C36_log_jac_total`, `SO3_jlog.C36_log_jac_small_angle`, `SO3_jlog.C36_local_jac`, `SO3_ops.C36_exp_backward`, `SO3_normback.C52_normalize_backward_refuted`, `SE3_exp.C37_exp_is_exponential`, `SE3_exp.C37_exp_small_angle`, `SE3_exp.C37_exp_small_angle_error`, `SE3_log.C37_log_is_logarithm`, `SE3_log.C37_log_defined`, `SE3_log.C37_log_exp`, `SE3_local.C37_retract_local`, `SE3_local.C37_local_retract`, `SE3_local.C37_xyz_quaternion`, `SE3_jexp.C37_exp_jac`, `SE3_jexp.C37_exp_jac_small_angle`, `SE3_jexp.C37_exp_jac_small_refuted`, `SE3_jexp.C37_retract_velocity`, `SE3_jexp.C37_exp_backward`, `SE3_jlog.C37_log_jac_total`, `SE3_jlog.C37_log_jac`, `SE3_jlog.C37_log_jac_small_angle`, `SE3_jlog_near.C37_log_jac_near_zero`, `SE3_jlog.C37_log_jac_no_rotation`, `SE3_jlog.C37_log_jac_small_refuted`, `SE3_local.C37_local_jac`, `Emb_props.C57_between_jac`, `Emb_props.C57_local_jac`, `Emb_props.C57_local_fast_partial`, `Emb_refute.C57_local_fast_refuted`, `Emb_props.C57_moving_frame_jac_partial`, `Emb_refute.C57_moving_frame_refuted_SE2`, `Emb_refute.C57_moving_frame_refuted_SO3`, `Emb_refute.C57_moving_frame_refuted_SE3`, `Emb_props.C57_jacobians_defined`, `Emb_props.C58_double_integrator_jac`, `Sdf_props.C60_collision_jac`, `Sdf_props.C60_contact_jac`, `Misc_props.C63_pushing_jac`, `Misc_props.C63_pushing_frame`, `Misc_props.C63_pushing_balance`, `Kin_props.C64_exact`, `Kin_props2.C65_jacobians`, `Kin_props2.C65_exact_jacobians`, `Lml_props.C68_lml_unique`, `Lml_fwd.C68_lml_forward_partial`, `Lml_rec.C68_lml_forward_any_size`, `Lml_rows.C68_lml_rows`, `Lml_rows.C68_lml_rows_refuted`, `Lml_fwd.C68_lml_large_refuted`, `Lml_bwd.C68_lml_backward`, `Cem_props.C69_softmax`, `Cem_props.C69_soft_elite_partial`, `Cem_any.C69_soft_elite_any_size`, `Ad_cases.C71_loop_refuted`, `Ad_cases.C71_so2`, `Ad_cases.C71_se2`, `Ad_cases.C71_so3`, `Ad_cases.C71_se3`, `Mg_props.C72_local`, `Mg_props.C72_information_form`, `Mg_props.C72_retract`, `Mg_props.C72_local_retract`, `Mg_props.C72_retract_local`, `Mg_ref.C72_meets`, `Mg_ref.C72_small_angle_refuted`, `Sing_ex.C75_example`, `Rand_unif.C80_so3_rand_onto`, `Rand_draws.C80_so2_rand_uniform`, `Ver_class.C81_row_so3`, `Ver_class.C81_row_se3`, `Ver_class.C81_row_se2`, `G2o_main.C84_read`, `G2o_main.C84_indexing`, `G2o_batch.C84_round_trip`, `G2o_data.C84_weights_refuted`, `Ba_props.C86_camera_params`, `Ba_props.C86_file`, `Ba_gen.C86_small_rotation`, `Ba_gen.C86_camera`, `Ba_gen.C86_perturbed`, `Ba_main.C86_synthetic`, `Ba_main.C86_soft_losses`, `Ba_props.C86_ground_truth_refuted`, `Ba_gen.C86_small_rotation_refuted`, `Ba_main.C86_last_point_refuted`, `Tb_group.C87_so2_group`, `Nd_jac.C88_jacobian_entries`, `Nd_limit.C88_jacobian_limit`, `Nd_limit.C88_jacobian_vector_bound`, `Nd_between.C88_jacobian_of_between`, `Nd_jac.C88_jacobian_no_args`, `Nd_jac.C88_jacobian_dim_zero`, `Nd_jac.C88_jacobian_wrong_dim`, `Nd_jac.C88_jacobian_rows_refuted`, `Nd_props.C88_grad_bound`, `Mp_traj.C90_straight_line_se2`, `Mp_init.C90_xy_difference`, `Fn_props.C94_lie_maps`, `Tac_main.C95_inputs_fail`, `Tac_main.C95_single_episode`, `Tac_main.C95_measurements`, `Tac_main.C95_batch_nn_refuted`, `Tac_main.C95_batch_oracle_refuted`, `Tac_main.C95_values`, `Tac_main.C95_keys`, `Tac_main.C95_oracle_consistent`, `Tac_main.C95_read_pose`, `Tac_main.C95_read_back`, `Tac_main.C95_read_values`

## `ClassicalDedekindReals.sig_forall_dec`, `ClassicalDedekindReals.sig_not_dec`, `FunctionalExtensionality.functional_extensionality_dep`

`Dog_props.C24_step_in_region_partial`, `Dog_props.C24_bounded_excess`, `Dog_props.C24_gauss_newton_inside`, `Dog_props.C24_step_decreases_model`, `Dog_props.C24_step_in_region_refuted`, `Dog_props.C24_batch_coupling_refuted`, `Rob_props.C31_flat_batched_radius_refuted`, `Rob_props.C31_example`, `Rob_props.C33_epsilon_refuted`, `SE2_exp.C35_exp_valid`, `SE2_jac.C35_exp_jac_total`, `SO3_exp.C36_exp_rotation`, `SE3_group.C37_transform`, `SE3_exp.C37_exp_rigid`, `SE3_local.C37_normalize`, `SE2_norm.C38_normalize_partial`, `SE2_norm.C38_normalize_valid_fixed`, `SE2_norm.C38_se2_normalize_partial`, `SE2_norm.C38_se2_normalize_fixed`, `SE2_norm.C38_normalize_float64_zero_refuted`, `Lgt_props.C40_add_tangent`, `Lgt_props.C40_lie_tensor_add`, `SO3_quat.C36_quaternion`, `SO3_quat.C36_quaternion_product`, `SO3_quat.C36_quaternion_scale`, `SO3_jexp.C36_exp_jac_total`, `SO3_ops.C36_normalize`, `SE3_jexp.C37_exp_jac_total`, `Lgt_props.C55_strict_planar`, `Lgt_props.C55_so2_partial`, `Lgt_props.C55_se2_partial`, `Lgt_props.C55_so3_normalized`, `Reproj_props.C59_reprojection_jac`, `Reproj_props.C59_reprojection_frame`, `GP_props.C61_gp_accepts_iff`, `GP_props.C61_gp_weight`, `GP_props.C61_gp_asymmetric_refuted`, `Misc_props.C62_nonholonomic_error`, `Misc_props.C62_nonholonomic_jac`, `Kin_props.C64_origin`, `Kin_props.C64_numbering`, `Kin_reject.C64_accepted`, `Kin_props.C64_forward_kinematics`, `Kin_props.C64_all_links`, `Kin_props2.C65_turn_scale`, `Kin_props2.C65_turns_exists`, `Kin_props2.C66_named_links`, `Kin_props2.C66_default_link_names`, `Bwd_dlm.C67_dlm_limit`, `Lml_fwd.C68_lml_all`, `Cem_props.C69_hard_elite`, `Cem_props.C69_all_elite_refuted`, `Cem_props.C69_hard_few_refuted`, `Cem_props.C69_bounds_refuted`, `Ad_main.C71_vmap`, `Ad_cases.C71_vmap_raises`, `Ad_main.C71_dense`, `Ad_main.C71_dense_raises`, `Ad_main.C71_loop`, `Ad_main.C71_loop_raises`, `Ad_cases.C71_loop_first_row`, `Mg_props.C72_inverts_exists`, `Desc.C74_dogleg_descends`, `Bas_ex.C76_library_exists`, `Samp_props.C79_samples`, `Samp_props.C79_moments`, `Samp_ex.C79_batch_refuted`, `Samp_ex.C79_standard_exists`, `Rand_props.C80_rand_valid`, `Rand_props.C80_randn_valid`, `Rand_unif.C80_so3_rand_two_to_one`, `Rand_unif.C80_so3_rand_uniform`, `Rand_draws.C80_rand_draws`, `Rand_draws.C80_rand_sizes`, `Rand_draws.C80_requires_grad_refuted`, `Ver_props.C81_check`, `Ver_props.C81_success`, `Ver_props.C81_named`, `Ver_class.C81_row_so2`, `Ver_ref.C81_fill`, `Ver_ref.C81_restore_refuted`, `Ver_ref.C81_nan_refuted`, `Ver_ref.C81_so2_refuted`, `Occ_main.C83_centres`, `Occ_main.C83_sign`, `Occ_main.C83_empty`, `Occ_main.C83_clearance`, `Occ_main.C83_neighbours`, `Occ_main.C83_safe`, `Occ_main.C83_lipschitz`, `Occ_main.C83_batch`, `Occ_main.C83_one_source`, `Occ_main.C83_positive_is_free_refuted`, `G2o_main.C84_indexing_refuted`, `G2o_main.C84_blank_line_refuted`, `G2o_main.C84_2d_refuted`, `Syn_main.C85_synthetic`, `Syn_main.C85_zero_noise_refuted`, `Ba_props.C86_file_sizes`, `Ba_main.C86_histogram`, `Ba_main.C86_histogram_range`, `Ba_main.C86_negative_index`, `Ba_main.C86_negative_index_range`, `Tb_vec.C87_norm`, `Tb_vec.C87_norm_refuted`, `Mp_init.C90_mean_trajectory`, `Mp_init.C90_mean_trajectory_ends`, `Mp_init.C90_bend_is_distance_refuted`, `Mp_init.C90_mean_velocity`, `Tac_props.C95_costs`, `Tac_props.C95_optim_vars`, `Tac_props.C95_aux_vars`, `Tac_props.C95_default_dtype_refuted`, `Tac_props.C95_step_zero`

## `ClassicalDedekindReals.sig_forall_dec`, `FunctionalExtensionality.functional_extensionality_dep`

`Vec_props.C08_vectorized_error_partial`, `Vec_props.C12_masking_exact_shipped_weights`, `Dog_props.C24_example`, `Lin_props.C26_dense_blocks`, `Lin_props.C26_sparse_equals_dense`, `Csr_props.C27_products`, `Damp_props.C28_dense`, `Damp_props.C28_solvers_agree`, `Damp_props.C28_cholmod_partial`, `Damp_props.C28_cholmod_refuted`, `Damp_props.C28_example`, `Adj_props.C29_solve_backward`, `Adj_diff.C29_solve_backward_invertible`, `Adj_props.C29_solve_backward_detached`, `Adj_diff.C29_solve_backward_detached_invertible`, `Adj_props.C29_detached_with_damping_raises`, `Adj_props.C29_negative_damping_refuted`, `Adj_diff.C29_example`, `Csr_props.C30_forward_products`, `Csr_props.C30_backward_mv`, `Csr_props.C30_backward_mtv`, `Csr_props.C30_duplicate_columns_refuted`, `SE2_group.C34_valid_meaning`, `SE2_group.C34_so2_group`, `SE2_group.C34_se2_group`, `SE2_group.C34_se2_matrix`, `SE2_group.C34_transform`, `SE2_group.C34_adjoint`, `SO3_group.C36_group`, `SO3_group.C36_hat_vee`, `SO3_group.C36_adjoint`, `SO3_group.C36_transform`, `SE3_group.C37_group`, `SE3_group.C37_hat_vee`, `SE3_group.C37_adjoint`, `SE3_group.C37_vee_check_pure_rotation`, `SE3_group.C37_vee_check_refuted`, `Lgt_props.C40_addc_plain`, `Csr_props.C46_mult_MtM`, `Csr_props.C46_apply_damping`, `Csr_props.C46_example`, `SO3_jlog.C36_log_backward`, `SO3_ops.C36_compose_jac`, `SO3_ops.C36_inverse_jac`, `SO3_ops.C36_between_jac`, `SO3_ops.C36_transform_jac`, `SO3_ops.C36_untransform_jac`, `SO3_ops.C36_backward_linear`, `SO3_ops.C36_project`, `SO3_normback.C52_normalize_backward`, `SE3_jlog.C37_log_backward`, `SE3_group.C37_compose_jac`, `SE3_group.C37_inverse_jac`, `SE3_group.C37_between_jac`, `SE3_group.C37_transform_jac`, `SE3_group.C37_untransform_jac`, `SE3_group.C37_backward_linear`, `SE3_group.C37_compose_backward`, `SE3_group.C37_inverse_backward`, `SE3_group.C37_adjoint_backward`, `SE3_group.C37_transform_backward`, `SE3_group.C37_untransform_backward`, `SE3_group.C37_project`, `SE3_local.C37_normalize_backward`, `Lgt_props.C55_so3_refuted`, `Lgt_props.C55_so3_strict`, `Lgt_props.C55_se3_strict`, `Lgt_props.C56_star_refuted`, `Reproj_props.C59_reprojection_error`, `Reproj_props.C59_reprojection_ray`, `Sdf_props.C60_sdf_defined`, `Sdf_props.C60_sdf_interpolates`, `Sdf_props.C60_sdf_range`, `Sdf_props.C60_sdf_jac`, `Sdf_props.C60_sdf_lipschitz`, `Sdf_props.C60_collision_error`, `Sdf_props.C60_collision_outside`, `Sdf_props.C60_sdf_update_refuted`, `GP_props.C61_gp_weighted_cost`, `Misc_props.C62_hinge_error`, `Misc_props.C62_hinge_jac`, `Misc_props.C62_hinge_overlap_refuted`, `Misc_props.C62_hinge_negative_threshold_refuted`, `Bwd_props.C67_implicit_velocity`, `Bwd_props.C67_implicit_exact_partial`, `Bwd_refute.C67_implicit_refuted`, `Bwd_props.C67_truncated_velocity`, `Bwd_props.C67_truncated_exact_partial`, `Bwd_refute.C67_truncated_step_size_refuted`, `Lml_bwd.C68_lml_backward_all`, `Ad_cases.C71_vector`, `Mg_obj_new.C73_new`, `Mg_obj_props.C73_update`, `Mg_obj_new.C73_copy`, `Mg_obj_main.C73_wf`, `Mg_obj_main.C73_separation`, `Mg_obj_main.C73_copy_independent`, `Mg_obj_main.C73_history`, `Mg_obj_ref.C73_meets`, `Mg_obj_ref.C73_update_atomic_refuted`, `Mg_obj_ref.C73_update_alias_refuted`, `Mg_obj_ref.C73_sharing_refuted`, `Mg_obj_ref.C73_batch_refuted`, `Desc.C74_step_descends`, `Desc.C74_stationary_stays`, `Desc.C74_affine_one_step`, `Desc.C74_affine_decrease`, `Desc.C74_linear_iterations`, `Desc.C74_linear_optimizer`, `Desc_ref.C74_full_step_refuted`, `Desc_ref.C74_descends_example`, `Desc_ref.C74_linear_example`, `Sing_props.C75_unique`, `Sing_props.C75_damped_refuted`, `Bas_main.C76_solves`, `Bas_main.C76_succeeds`, `Bas_main.C76_blocks_stored`, `Bas_obj.C76_objective`, `Bas_addM.C76_add_M`, `Act_props.C78_left_act_so3`, `Act_props.C78_left_act_se3`, `Act_props.C78_left_project_so3`, `Act_props.C78_left_project_se3`, `Act_raise.C78_left_act_returns`, `Samp_ex.C79_refuses_refuted`, `Samp_ex.C79_mean_refuted`, `Rand_props.C80_identity`, `Ver_class.C81_row_vec`, `Syn_main.C85_histogram`, `Ba_props.C86_projection`, `Ba_props.C86_projection_error`, `Tb_vec.C87_arith`, `Tb_vec.C87_arith_raises`, `Tb_vec.C87_unary`, `Tb_vec.C87_products`, `Tb_vec.C87_vector_group`, `Tb_vec.C87_vector_retract`, `Tb_group.C87_se2_group`, `Tb_group.C87_group_raises`, `Tb_vec.C87_compose_jac_batch_refuted`, `Nd_props.C88_grad_entries`, `Nd_props.C88_grad_quadratic`, `Nd_props.C88_grad_not_a_vector`, `Nd_props.C88_grad_integers_refuted`, `Ltt_ex.C89_times_is_compose_refuted`, `Ltt_ex.C89_update_reaches_tensor_refuted`, `Mp_main.C90_accepts`, `Mp_main.C90_cost_functions`, `Mp_main.C90_boundary`, `Mp_main.C90_steps`, `Mp_main.C90_optim_vars`, `Mp_more.C90_keys`, `Mp_more.C90_documented_keys_refuted`, `Mp_more.C90_total_squared_errors`, `Mp_more.C90_copy`, `Mp_more.C90_copy_succeeds`, `Mp_more.C90_copy_same_costs_refuted`, `Mp_more.C90_copy_zero_weight_refuted`, `Mp_traj.C90_straight_line`, `Mp_traj.C90_straight_line_ends`, `Mp_traj.C90_straight_line_gp`, `Mp_traj.C90_straight_line_se2_zero_iff`, `Mp_traj.C90_positive_vel`, `Mp_traj.C90_positive_vel_refuted`, `Mp_traj.C90_positive_vel_conflict`, `Mp_init.C90_columns`, `Mp_init.C90_sample_partial`, `Mp_init.C90_sample_refuted`, `Mp_init.C90_sample_ignores_obstacles_refuted`, `Mp_init.C90_extra_costs_default_dtype_refuted`, `Rsm_props.C92_fill`, `Tds_main.C96_partition`, `Tds_main.C96_validation_size`, `Tds_main.C96_small_training`, `Tds_main.C96_steps`, `Cc_main.C97_copy_weight`, `Cc_main.C97_copy`, `Cc_main.C97_gp_copy_class`, `Cc_find.C97_make_keeps_names`, `Cc_find.C97_calib_names`, `Cc_find.C97_csquare_name`, `Cc_find.C97_scale_row`, `Cc_find.C97_diagonal_middle`, `Cc_find.C97_refused_but_changed`, `Cc_find.C97_xy_accepts`, `Cc_find.C97_between_accepts`, `Cc_find.C97_hinge_copy_raises`, `Cc_find.C97_shared_variable_split`, `Grp_main.C98_returns`, `Grp_main.C98_values`, `Grp_main.C98_jacobians`, `Grp_main.C98_gradient`, `Grp_main.C98_untransform_gradient_refuted`, `Grp_main.C98_methods`
