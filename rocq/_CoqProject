-Q theories Verif
theories/Dict.v
theories/Obj_model.v
theories/Obj_spec.v
theories/Obj_proofs.v
theories/Obj_proofs2.v
theories/Obj_props.v
theories/Upd_model.v
theories/Upd_proofs.v
theories/Upd_props.v
theories/Ord_model.v
theories/Ord_props.v
theories/Vec_model.v
theories/Vec_spec.v
theories/Vec_proofs.v
theories/Vec_proofs2.v
theories/Vec_props.v
theories/Group.v
theories/Ret_model.v
theories/Ret_props.v
theories/Stale_model.v
theories/Stale_props.v
theories/NL_model.v
theories/NL_proofs.v
theories/NL_props.v
theories/NL_flag.v
theories/NL_batch.v
theories/QSum.v
theories/NL_desc.v
theories/LM_model.v
theories/LM_props.v
theories/RSum.v
theories/Dog_model.v
theories/Dog_props.v
theories/Csr_spec.v
theories/Lin_model.v
theories/Lin_proofs.v
theories/Lin_proofs2.v
theories/Lin_props.v
theories/Csr_model.v
theories/Csr_props.v
theories/Damp_model.v
theories/Damp_props.v
theories/Adj_props.v
theories/Adj_diff.v
theories/LU_model.v
theories/LU_props.v
theories/Rob_model.v
theories/Rob_props.v
theories/Geo_spec.v
theories/Trig.v
theories/Exp_unique.v
theories/SE2_model.v
theories/SE2_group.v
theories/SE2_exp.v
theories/SE2_jac.v
theories/SE2_norm.v
theories/Geo3_spec.v
theories/SO3_model.v
theories/SO3_exp.v
theories/SO3_jexp.v
theories/SO3_group.v
theories/SO3_quat.v
theories/SO3_quatjac.v
theories/SO3_ops.v
theories/SO3_log.v
theories/SO3_jlog.v
theories/SO3_normback.v
theories/Geo4_spec.v
theories/SE3_model.v
theories/SE3_group.v
theories/SE3_exp.v
theories/SE3_jexp.v
theories/SE3_log.v
theories/SE3_jlog.v
theories/SE3_local.v
theories/Ctx_model.v
theories/Ctx_props.v
theories/Lgt_model.v
theories/Lgt_props.v
theories/Copy_model.v
theories/Copy_spec.v
theories/Copy_proofs.v
theories/Copy_proofs2.v
theories/Copy_proofs3.v
theories/Copy_proofs4.v
theories/Copy_props.v
theories/SE2_curve.v
theories/Emb_model.v
theories/Emb_spec.v
theories/Emb_laws.v
theories/Emb_props.v
theories/Emb_refute.v
theories/Emb2_model.v
theories/Emb2_spec.v
theories/Reproj_props.v
theories/Misc_props.v
theories/Sdf_props.v
theories/Chol.v
theories/GP_props.v
theories/Kin_spec.v
theories/Kin_model.v
theories/Kin_tree.v
theories/Kin_num.v
theories/Kin_fk.v
theories/Kin_props.v
theories/Kin_jac.v
theories/Kin_jac2.v
theories/Kin_props2.v
theories/Kin_reject.v
theories/Bwd_model.v
theories/Bwd_spec.v
theories/Bwd_props.v
theories/Bwd_dlm.v
theories/Bwd_refute.v
theories/Lml_model.v
theories/Lml_spec.v
theories/Lml_props.v
theories/Lml_fwd.v
theories/Lml_bwd.v
theories/Lml_rec.v
theories/Lml_rows.v
theories/Cem_any.v
theories/Cem_props.v
theories/Dcem_model.v
theories/Dcem_props.v
theories/Ad_model.v
theories/Ad_spec.v
theories/Ad_props.v
theories/Ad_main.v
theories/Ad_cases.v
theories/Ad_tmp.v
theories/Mg_model.v
theories/Mg_spec.v
theories/Mg_inv.v
theories/Mg_laws.v
theories/Mg_laws2.v
theories/Mg_laws3.v
theories/Mg_props.v
theories/Mg_ref.v
theories/Mg_obj.v
theories/Mg_obj_props.v
theories/Mg_obj_new.v
theories/Mg_obj_hist.v
theories/Mg_obj_main.v
theories/Mg_obj_ref.v
theories/Desc_model.v
theories/Desc.v
theories/Desc_ref.v
theories/Sing_model.v
theories/Sing_props.v
theories/Sing_ex.v
theories/Bas_model.v
theories/Bas_spec.v
theories/Bas_blocks.v
theories/Bas_adds.v
theories/Bas_props.v
theories/Bas_main.v
theories/Bas_addM.v
theories/Bas_obj.v
theories/Bas_ex.v
theories/Act_model.v
theories/Act_base.v
theories/Act_ops.v
theories/Act_core.v
theories/Act_props.v
theories/Act_raise.v
theories/Samp_model.v
theories/Samp_props.v
theories/Samp_ex.v
theories/Rand_model.v
theories/Rand_props.v
theories/Rand_unif.v
theories/Rand_draws.v
theories/Ver_model.v
theories/Ver_props.v
theories/Ver_class.v
theories/Ver_ref.v
theories/Sess_model.v
theories/Sess_spec.v
theories/Sess_props.v
theories/Sess_main.v
theories/Sess_ex.v
theories/Occ_model.v
theories/Occ_spec.v
theories/Occ_props.v
theories/Occ_main.v
theories/G2o_model.v
theories/G2o_spec.v
theories/G2o_props.v
theories/G2o_main.v
theories/G2o_batch.v
theories/G2o_data.v
theories/Syn_model.v
theories/Syn_spec.v
theories/Syn_props.v
theories/Syn_main.v
theories/Ba_model.v
theories/Ba_spec.v
theories/Ba_props.v
theories/Ba_gen.v
theories/Ba_main.v
theories/Tb_model.v
theories/Tb_spec.v
theories/Tb_props.v
theories/Tb_vec.v
theories/Tb_planar.v
theories/Tb_group.v
theories/Nd_model.v
theories/Nd_spec.v
theories/Nd_props.v
theories/Nd_jac.v
theories/Nd_limit.v
theories/Nd_between.v
theories/Ltt_model.v
theories/Ltt_spec.v
theories/Ltt_props.v
theories/Ltt_main.v
theories/Ltt_more.v
theories/Ltt_share.v
theories/Ltt_values.v
theories/Ltt_ex.v
theories/Mp_model.v
theories/Mp_spec.v
theories/Mp_props.v
theories/Mp_main.v
theories/Mp_more.v
theories/Mp_traj.v
theories/Mp_init.v
theories/SE3_jlog_near.v
theories/Tmr_model.v
theories/Tmr_spec.v
theories/Tmr_props.v
theories/Rsm_model.v
theories/Rsm_props.v
theories/Gp_model.v
theories/Gp_spec.v
theories/Gp_props.v
theories/Fn_model.v
theories/Fn_props.v
theories/Tac_model.v
theories/Tac_spec.v
theories/Tac_win.v
theories/Tac_obj.v
theories/Tac_props.v
theories/Tac_inp.v
theories/Tac_main.v
theories/Tds_model.v
theories/Tds_props.v
theories/Tds_main.v
theories/Cc_model.v
theories/Cc_spec.v
theories/Cc_props.v
theories/Cc_copy.v
theories/Cc_main.v
theories/Cc_find.v
theories/Grp_model.v
theories/Grp_spec.v
theories/Grp_base.v
theories/Grp_grad.v
theories/Grp_jac.v
theories/Grp_main.v
theories/Acf_model.v
theories/Acf_spec.v
theories/Acf_base.v
theories/Acf_make.v
theories/Acf_auto.v
theories/Acf_wrap.v
theories/Acf_robust.v
theories/Acf_copy.v
theories/Acf_copy2.v
theories/Acf_copy3.v
theories/Acf_to.v
theories/Acf_main.v
theories/Ctor_model.v
theories/Ctor_base.v
theories/Ctor_lem.v
theories/Ctor_main.v
theories/Ctor_names.v
theories/Ctor_rand.v
theories/Ctor_dt.v
theories/Opt_model.v
theories/Opt_main.v
theories/Opt_ref.v
theories/Vst_model.v
theories/Vst_props.v
theories/Hv_model.v
theories/Hv_props.v
theories/Hvt_model.v
theories/Hvt_props.v
