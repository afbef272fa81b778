# Print Assumptions per theorem

sig_not_dec, sig_forall_dec: `Coq.Reals.ClassicalDedekindReals`; funext: `Coq.Logic.FunctionalExtensionality.functional_extensionality_dep`; classic: `Coq.Logic.Classical_Prop.classic`. "none" means closed under the global context. Generated by tools/axioms.py.

| theorem | file | axioms |
|---|---|---|
| C01_fit_lengths | T_Scaling | sig_forall_dec, sig_not_dec, classic, funext |
| C01_fit_transform | T_Scaling | sig_forall_dec, sig_not_dec, classic, funext |
| C01_predict_cells | T_Scaling | sig_forall_dec, sig_not_dec, classic, funext |
| C01_transform_cells | T_Scaling | sig_forall_dec, sig_not_dec, classic, funext |
| C02_roundtrip_iff | T_Scaling | sig_forall_dec, sig_not_dec, classic, funext |
| C02_roundtrip_refuted | T_Scaling | none |
| C03_mean_std | T_Scaling | sig_forall_dec, sig_not_dec, classic, funext |
| C04_median_mad | T_Scaling | sig_forall_dec, sig_not_dec, classic, funext |
| C05_affine_equivariance | T_Scaling | sig_forall_dec, sig_not_dec, classic, funext |
| C05_fit_succeeds | T_Scaling | sig_forall_dec, sig_not_dec, classic, funext |
| C05_tau_affine | T_Preproc | sig_forall_dec, sig_not_dec, classic, funext |
| C06_documented | T_Order | sig_forall_dec, sig_not_dec, classic, funext |
| C06_row_order | T_Scaling | sig_forall_dec, sig_not_dec, classic, funext |
| C07_rejected | T_Scaling | sig_forall_dec, sig_not_dec, classic, funext |
| C07_too_much | T_Scaling | sig_forall_dec, sig_not_dec, classic, funext |
| C07_too_much_documented | T_Scaling | sig_forall_dec, sig_not_dec, classic, funext |
| C07_trimmed_mean | T_Scaling | sig_forall_dec, sig_not_dec, classic, funext |
| C08_failed_fit_refuted | T_Scaling | none |
| C08_history | T_Scaling | sig_forall_dec, sig_not_dec, classic, funext |
| C08_predicted | T_Extra | none |
| C08_stored | T_Extra | none |
| C09_missing | T_Preproc | sig_forall_dec, sig_not_dec, classic, funext |
| C100_distance_correlation | T_Dicomo | sig_forall_dec, sig_not_dec, classic, funext |
| C101_nonnegative | T_Dicomo | sig_forall_dec, sig_not_dec, classic, funext |
| C102_comoments | T_Dicomo | sig_forall_dec, sig_not_dec, classic, funext |
| C102_moments | T_Dicomo | sig_forall_dec, sig_not_dec, classic, funext |
| C103_median_refuted | T_Capi | none |
| C103_repeatable | T_Capi | sig_forall_dec, sig_not_dec, classic, funext |
| C104_covering | T_Ppdire | sig_forall_dec, sig_not_dec, classic, funext |
| C105_even_refuted | T_Ppdire | sig_forall_dec, sig_not_dec, classic, funext |
| C105_first | T_Ppdire | sig_forall_dec, sig_not_dec, classic, funext |
| C105_odd | T_Ppdire | sig_forall_dec, sig_not_dec, classic, funext |
| C106_residuals | T_Ppdire | sig_forall_dec, sig_not_dec, classic, funext |
| C107_compression_refuted | T_Ppdire | sig_forall_dec, sig_not_dec, classic, funext |
| C109_unit_weights | T_Ppdire | sig_forall_dec, sig_not_dec, classic, funext |
| C10_single_row | T_Scaling | sig_forall_dec, sig_not_dec, classic, funext |
| C10_single_row_refuted | T_Scaling | none |
| C110_reported | T_Ppdire | sig_forall_dec, sig_not_dec, classic, funext |
| C111_six_responses | T_Sudire | sig_forall_dec, sig_not_dec, classic, funext |
| C112_direct | T_Sudire | sig_forall_dec, sig_not_dec, classic, funext |
| C112_optimised | T_Sudire | sig_forall_dec, sig_not_dec, classic, funext |
| C113_refuted | T_Sudire | sig_forall_dec, sig_not_dec, classic, funext |
| C114_predictions | T_Sudire | sig_forall_dec, sig_not_dec, classic, funext |
| C115_refuted | T_Sudire | sig_forall_dec, sig_not_dec, classic, funext |
| C116_refuted | T_Sudire | sig_forall_dec, sig_not_dec, classic, funext |
| C117_bcov_name_refuted | T_Errors | sig_forall_dec, sig_not_dec, classic, funext |
| C117_bcov_refuted | T_Sudire | sig_forall_dec, sig_not_dec, classic, funext |
| C117_center_refuted | T_Sudire | sig_forall_dec, sig_not_dec, classic, funext |
| C118_order_only | T_Sudire | sig_forall_dec, sig_not_dec, classic, funext |
| C119_translation | T_Sudire | sig_forall_dec, sig_not_dec, classic, funext |
| C11_median_breakdown | T_Scaling | sig_forall_dec, sig_not_dec, classic, funext |
| C120_rotation | T_Sudire | sig_forall_dec, sig_not_dec, classic, funext |
| C120_values | T_Sudire | sig_forall_dec, sig_not_dec, classic, funext |
| C121_deep | T_Params | none |
| C121_deep_refuted | T_Params | none |
| C122_constructor | T_Params | none |
| C123_accepts | T_Params | none |
| C123_rebuild | T_Params | none |
| C123_unchecked_refuted | T_Params | none |
| C124_derived_refuted | T_Params | none |
| C125_algorithms_agree_refuted | T_Dicomo2 | sig_forall_dec, sig_not_dec, classic, funext |
| C125_default_algorithm | T_Dicomo2 | sig_forall_dec, sig_not_dec, classic, funext |
| C125_estimator | T_Dicomo2 | sig_forall_dec, sig_not_dec, classic, funext |
| C125_general_algorithm | T_Dicomo2 | sig_forall_dec, sig_not_dec, classic, funext |
| C125_mdd | T_Dicomo2 | sig_forall_dec, sig_not_dec, classic, funext |
| C125_mdd_nonnegative_refuted | T_Dicomo2 | sig_forall_dec, sig_not_dec, classic, funext |
| C126_trimmed_mdd | T_Dicomo2 | sig_forall_dec, sig_not_dec, classic, funext |
| C127_trimmed_moments | T_Dicomo2 | sig_forall_dec, sig_not_dec, classic, funext |
| C127_trimvar | T_Dicomo2 | sig_forall_dec, sig_not_dec, classic, funext |
| C128_median_comoment | T_Dicomo2 | sig_forall_dec, sig_not_dec, classic, funext |
| C128_median_moments | T_Dicomo2 | sig_forall_dec, sig_not_dec, classic, funext |
| C128_variance_scaling_refuted | T_Dicomo2 | sig_forall_dec, sig_not_dec, classic, funext |
| C129_snipls | T_Order | sig_forall_dec, sig_not_dec, classic, funext |
| C12_mad_breakdown | T_Scaling | sig_forall_dec, sig_not_dec, classic, funext |
| C12_mad_zero_iff | T_Scaling | sig_forall_dec, sig_not_dec, classic, funext |
| C130_rm | T_Order | sig_forall_dec, sig_not_dec, classic, funext |
| C131_sprm | T_Order | sig_forall_dec, sig_not_dec, classic, funext |
| C132_dicomo | T_Order | sig_forall_dec, sig_not_dec, classic, funext |
| C133_new_data | T_Units | sig_forall_dec, sig_not_dec, classic, funext |
| C133_snipls | T_Units | sig_forall_dec, sig_not_dec, classic, funext |
| C134_new_data | T_Units | sig_forall_dec, sig_not_dec, classic, funext |
| C134_rm | T_Units | sig_forall_dec, sig_not_dec, classic, funext |
| C135_new_data | T_Units | sig_forall_dec, sig_not_dec, classic, funext |
| C135_sprm | T_Units | sig_forall_dec, sig_not_dec, classic, funext |
| C135_units_refuted | T_Units | sig_forall_dec, sig_not_dec, classic, funext |
| C136_categories_refuted | T_OrderSd | sig_forall_dec, sig_not_dec, classic, funext |
| C136_moments | T_OrderSd | sig_forall_dec, sig_not_dec, classic, funext |
| C136_sliced | T_OrderSd | sig_forall_dec, sig_not_dec, classic, funext |
| C137_sudire | T_OrderSd | sig_forall_dec, sig_not_dec, classic, funext |
| C138_start_refuted | T_OrderSd | sig_forall_dec, sig_not_dec, classic, funext |
| C139_every_case | T_Plot | sig_forall_dec, sig_not_dec, classic, funext |
| C139_test | T_Plot | sig_forall_dec, sig_not_dec, classic, funext |
| C139_too_many_names | T_Errors | none |
| C139_training | T_Plot | sig_forall_dec, sig_not_dec, classic, funext |
| C13_trimmed_mean_bulk | T_Scaling | sig_forall_dec, sig_not_dec, classic, funext |
| C140_default_refuted | T_Plot | none |
| C140_test | T_Plot | sig_forall_dec, sig_not_dec, classic, funext |
| C140_training | T_Plot | sig_forall_dec, sig_not_dec, classic, funext |
| C141_bars | T_Plot | none |
| C141_mode_refuted | T_Plot | none |
| C142_refuted | T_Plot | none |
| C143_first_character_refuted | T_Plot | none |
| C143_legends | T_Plot | sig_forall_dec, sig_not_dec, classic, funext |
| C144_lengths | T_Errors3 | none |
| C144_list_label_refuted | T_Extra | none |
| C144_one_new_case_refuted | T_Plot | sig_forall_dec, sig_not_dec, classic, funext |
| C144_ppdire_test | T_Plot | sig_forall_dec, sig_not_dec, classic, funext |
| C144_ppdire_training | T_Plot | sig_forall_dec, sig_not_dec, classic, funext |
| C144_sudire_scores | T_Plot | sig_forall_dec, sig_not_dec, classic, funext |
| C144_sudire_test | T_Plot | sig_forall_dec, sig_not_dec, classic, funext |
| C144_sudire_training | T_Plot | sig_forall_dec, sig_not_dec, classic, funext |
| C144_uncentred_refuted | T_Plot | sig_forall_dec, sig_not_dec, classic, funext |
| C145_first | T_Plot | sig_forall_dec, sig_not_dec, classic, funext |
| C145_later_refuted | T_Plot | none |
| C146_bars | T_Plot | sig_forall_dec, sig_not_dec, classic, funext |
| C146_list_refuted | T_Plot | none |
| C146_mismatch | T_Extra | none |
| C146_numbers_refuted | T_Plot | none |
| C147_maximises | T_Ppdire2 | sig_forall_dec, sig_not_dec, classic, funext |
| C148_stored_scaling | T_Ppdire2 | sig_forall_dec, sig_not_dec, classic, funext |
| C149_centre_refuted | T_Ppdire2 | none |
| C149_set_later_error | T_Ppdire2 | sig_forall_dec, sig_not_dec, classic, funext |
| C149_set_later_refuted | T_Ppdire2 | sig_forall_dec, sig_not_dec, classic, funext |
| C14_convex | T_Preproc | sig_forall_dec, sig_not_dec, classic, funext |
| C14_objective | T_Preproc | sig_forall_dec, sig_not_dec, classic, funext |
| C14_stationary | T_Preproc | sig_forall_dec, sig_not_dec, classic, funext |
| C14_subgradient | T_Preproc | sig_forall_dec, sig_not_dec, classic, funext |
| C14_unique | T_Rotate | sig_forall_dec, sig_not_dec, classic, funext |
| C150_default_instance | T_Ppdire2 | sig_forall_dec, sig_not_dec, classic, funext |
| C150_maxiter_refuted | T_Ppdire2 | sig_forall_dec, sig_not_dec, classic, funext |
| C150_ndir_default | T_Ppdire2 | sig_forall_dec, sig_not_dec, classic, funext |
| C150_refused | T_Options3 | sig_forall_dec, sig_not_dec, classic, funext |
| C151_overruled | T_Ppdire2 | sig_forall_dec, sig_not_dec, classic, funext |
| C151_params_refuted | T_Ppdire2 | sig_forall_dec, sig_not_dec, classic, funext |
| C152_capi | T_OrderPp | sig_forall_dec, sig_not_dec, classic, funext |
| C152_dicomo | T_OrderPp | sig_forall_dec, sig_not_dec, classic, funext |
| C152_order | T_OrderPp | sig_forall_dec, sig_not_dec, classic, funext |
| C152_start_refuted | T_OrderPp | sig_forall_dec, sig_not_dec, classic, funext |
| C153_dicomo | T_OrderPp | sig_forall_dec, sig_not_dec, classic, funext |
| C153_order | T_OrderPp | sig_forall_dec, sig_not_dec, classic, funext |
| C154_completes | T_OrderPp | sig_forall_dec, sig_not_dec, classic, funext |
| C154_variance_answers | T_OrderPp | sig_forall_dec, sig_not_dec, classic, funext |
| C155_new_data | T_UnitsPp | sig_forall_dec, sig_not_dec, classic, funext |
| C155_units | T_UnitsPp | sig_forall_dec, sig_not_dec, classic, funext |
| C156_quantile_refuted | T_UnitsPp | sig_forall_dec, sig_not_dec, classic, funext |
| C156_twice | T_UnitsPp | sig_forall_dec, sig_not_dec, classic, funext |
| C157_floats | T_Dtype | sig_forall_dec, sig_not_dec, classic, funext |
| C157_ppdire | T_Dtype | sig_forall_dec, sig_not_dec, classic, funext |
| C157_ppdire_refuted | T_Dtype | sig_forall_dec, sig_not_dec, classic, funext |
| C157_scaleTau2_refuted | T_Dtype | sig_forall_dec, sig_not_dec, classic, funext |
| C157_scaler | T_Dtype | sig_forall_dec, sig_not_dec, classic, funext |
| C158_floats | T_Dtype | sig_forall_dec, sig_not_dec, classic, funext |
| C158_integers_refuted | T_Dtype | sig_forall_dec, sig_not_dec, classic, funext |
| C159_directions | T_UnitsSd | sig_forall_dec, sig_not_dec, classic, funext |
| C159_predictions | T_UnitsSd | sig_forall_dec, sig_not_dec, classic, funext |
| C15_iterations | T_Preproc | sig_forall_dec, sig_not_dec, classic, funext |
| C15_monotone | T_Preproc | sig_forall_dec, sig_not_dec, classic, funext |
| C15_monotone_refuted | T_Preproc | none |
| C15_scaler | T_Options | sig_forall_dec, sig_not_dec, classic, funext |
| C15_step | T_Preproc | sig_forall_dec, sig_not_dec, classic, funext |
| C160_centring_refuted | T_Options | none |
| C160_defaults | T_Options | none |
| C161_centre | T_Options | none |
| C162_new_data | T_Vars | sig_forall_dec, sig_not_dec, classic, funext |
| C162_snipls | T_Vars | sig_forall_dec, sig_not_dec, classic, funext |
| C163_new_data | T_Vars | sig_forall_dec, sig_not_dec, classic, funext |
| C163_rm | T_Vars | sig_forall_dec, sig_not_dec, classic, funext |
| C164_new_data | T_Vars | sig_forall_dec, sig_not_dec, classic, funext |
| C164_sprm | T_Vars | sig_forall_dec, sig_not_dec, classic, funext |
| C165_refuted | T_Break | sig_forall_dec, sig_not_dec, classic, funext |
| C165_slope | T_Break | sig_forall_dec, sig_not_dec, classic, funext |
| C166_any_centre | T_Rotate | sig_forall_dec, sig_not_dec, classic, funext |
| C166_l1median | T_Rotate | sig_forall_dec, sig_not_dec, classic, funext |
| C166_mean | T_Rotate | sig_forall_dec, sig_not_dec, classic, funext |
| C166_median_refuted | T_Rotate | none |
| C166_signs | T_Rotate | sig_forall_dec, sig_not_dec, classic, funext |
| C167_scaler_refuted | T_Rotate | none |
| C167_steps | T_Rotate | sig_forall_dec, sig_not_dec, classic, funext |
| C167_units | T_Rotate | sig_forall_dec, sig_not_dec, classic, funext |
| C168_wrapper | T_Rotate | sig_forall_dec, sig_not_dec, classic, funext |
| C169_ppdire | T_Errors | sig_forall_dec, sig_not_dec, classic, funext |
| C169_rm | T_Errors | none |
| C169_snipls | T_Errors | none |
| C169_sprm | T_Errors | none |
| C169_sudire | T_Errors | sig_forall_dec, sig_not_dec, classic, funext |
| C16_columnwise_refuted | T_Preproc | none |
| C16_common_factor | T_Preproc | sig_forall_dec, sig_not_dec, classic, funext |
| C16_no_weighting | T_Errors | sig_forall_dec, sig_not_dec, classic, funext |
| C16_scaler | T_Options | sig_forall_dec, sig_not_dec, classic, funext |
| C16_single_column | T_Preproc | sig_forall_dec, sig_not_dec, classic, funext |
| C170_grid_options | T_Errors | sig_forall_dec, sig_not_dec, classic, funext |
| C170_negative | T_Errors | sig_forall_dec, sig_not_dec, classic, funext |
| C171_ppdire_refuted | T_Compress | sig_forall_dec, sig_not_dec, classic, funext |
| C171_sudire | T_Compress | sig_forall_dec, sig_not_dec, classic, funext |
| C172_ppdire_refuted | T_Frames | sig_forall_dec, sig_not_dec, classic, funext |
| C172_sudire_refuted | T_Frames | sig_forall_dec, sig_not_dec, classic, funext |
| C173_dcov | T_SdrOpt | sig_forall_dec, sig_not_dec, classic, funext |
| C173_mdd | T_SdrOpt | sig_forall_dec, sig_not_dec, classic, funext |
| C174_snipls_constructor | T_Extra | sig_forall_dec, sig_not_dec, classic, funext |
| C175_decreasing | T_Pca | sig_forall_dec, sig_not_dec, classic, funext |
| C175_principal_components | T_Pca | sig_forall_dec, sig_not_dec, classic, funext |
| C176_pls_weights | T_Pca | sig_forall_dec, sig_not_dec, classic, funext |
| C176_same_as_snipls | T_Pca | sig_forall_dec, sig_not_dec, classic, funext |
| C176_same_fitted_values | T_Pca | sig_forall_dec, sig_not_dec, classic, funext |
| C177_more_fit_better | T_Nested | sig_forall_dec, sig_not_dec, classic, funext |
| C177_ppdire | T_Nested | sig_forall_dec, sig_not_dec, classic, funext |
| C177_ppdire_fewer | T_Nested | sig_forall_dec, sig_not_dec, classic, funext |
| C177_residuals_shrink | T_Nested | sig_forall_dec, sig_not_dec, classic, funext |
| C177_snipls | T_Nested | none |
| C177_sudire | T_Nested | sig_forall_dec, sig_not_dec, classic, funext |
| C178_decomposition | T_Decomp | sig_forall_dec, sig_not_dec, classic, funext |
| C178_exact | T_Decomp | sig_forall_dec, sig_not_dec, classic, funext |
| C178_explained_variance | T_Decomp | sig_forall_dec, sig_not_dec, classic, funext |
| C179_ppdire_least_squares | T_Full | sig_forall_dec, sig_not_dec, classic, funext |
| C179_same_fitted_values | T_Full | sig_forall_dec, sig_not_dec, classic, funext |
| C179_snipls_least_squares | T_Full | sig_forall_dec, sig_not_dec, classic, funext |
| C179_snipls_scaled | T_Full | sig_forall_dec, sig_not_dec, classic, funext |
| C17_shape | T_Preproc | sig_forall_dec, sig_not_dec, classic, funext |
| C17_wrap_column | T_Preproc | sig_forall_dec, sig_not_dec, classic, funext |
| C180_none_refuted | T_Errors2 | sig_forall_dec, sig_not_dec, classic, funext |
| C180_unknown_names | T_Errors2 | none |
| C181_first_sample | T_Errors2 | none |
| C181_second_sample | T_Errors2 | none |
| C181_vector_refuted | T_Errors2 | sig_forall_dec, sig_not_dec, classic, funext |
| C182_five_colours | T_Errors2 | none |
| C182_two_colours | T_Errors2 | none |
| C183_low_rank | T_Young | sig_forall_dec, sig_not_dec, classic, funext |
| C183_most_variance | T_Young | sig_forall_dec, sig_not_dec, classic, funext |
| C184_dcov | T_Copies | sig_forall_dec, sig_not_dec, classic, funext |
| C184_scaler | T_Copies | sig_forall_dec, sig_not_dec, classic, funext |
| C184_shape | T_Copies | sig_forall_dec, sig_not_dec, classic, funext |
| C184_snipls | T_Copies | sig_forall_dec, sig_not_dec, classic, funext |
| C184_trimmed_refuted | T_Copies | none |
| C184_variance_iff | T_Copies | sig_forall_dec, sig_not_dec, classic, funext |
| C185_moments | T_Errors3 | none |
| C185_slices | T_Errors3 | none |
| C186_coefficients | T_Krylov | sig_forall_dec, sig_not_dec, classic, funext |
| C186_weights | T_Krylov | sig_forall_dec, sig_not_dec, classic, funext |
| C187_products | T_Krylov | sig_forall_dec, sig_not_dec, classic, funext |
| C188_monotone_refuted | T_Float | sig_forall_dec, sig_not_dec, classic, funext |
| C188_weights | T_Float | sig_forall_dec, sig_not_dec, classic, funext |
| C189_mean_refuted | T_Float | sig_forall_dec, sig_not_dec, classic, funext |
| C189_middle | T_Float | sig_forall_dec, sig_not_dec, classic, funext |
| C189_order | T_Float | sig_forall_dec, sig_not_dec, classic, funext |
| C18_fitted_state_ignored | T_Preproc | sig_forall_dec, sig_not_dec, classic, funext |
| C18_fitted_state_refuted | T_Preproc | none |
| C190_constant | T_Float | sig_forall_dec, sig_not_dec, classic, funext |
| C190_mean_refuted | T_Float | sig_forall_dec, sig_not_dec, classic, funext |
| C190_monotone | T_Float | sig_forall_dec, sig_not_dec, classic, funext |
| C191_PHD | T_Best | sig_forall_dec, sig_not_dec, classic, funext |
| C191_SIR | T_Best | sig_forall_dec, sig_not_dec, classic, funext |
| C192_complete | T_Best | sig_forall_dec, sig_not_dec, classic, funext |
| C192_reconstructs | T_Best | sig_forall_dec, sig_not_dec, classic, funext |
| C193_one_block | T_Errors4 | none |
| C193_refuted | T_Errors4 | none |
| C194_rm | T_Float2 | sig_forall_dec, sig_not_dec, classic, funext |
| C194_sprm | T_Float2 | sig_forall_dec, sig_not_dec, classic, funext |
| C195_kept | T_Start | sig_forall_dec, sig_not_dec, classic, funext |
| C195_start | T_Start | sig_forall_dec, sig_not_dec, classic, funext |
| C195_used | T_Start | sig_forall_dec, sig_not_dec, classic, funext |
| C196_rm | T_MissReg | sig_forall_dec, sig_not_dec, classic, funext |
| C196_snipls_refuted | T_MissReg | sig_forall_dec, sig_not_dec, classic, funext |
| C196_sprm | T_MissReg | sig_forall_dec, sig_not_dec, classic, funext |
| C197_rm | T_Irls | sig_forall_dec, sig_not_dec, classic, funext |
| C198_sprm | T_IrlsSp | sig_forall_dec, sig_not_dec, classic, funext |
| C199_rm | T_Clean | sig_forall_dec, sig_not_dec, classic, funext |
| C199_sprm | T_Clean | sig_forall_dec, sig_not_dec, classic, funext |
| C19_factors | T_Radial | sig_forall_dec, sig_not_dec, classic, funext |
| C19_rows | T_Radial | sig_forall_dec, sig_not_dec, classic, funext |
| C200_exact_fit_refuted | T_Exact | sig_forall_dec, sig_not_dec, classic, funext |
| C201_coinciding_refuted | T_Coincide | sig_forall_dec, sig_not_dec, classic, funext |
| C202_coinciding_refuted | T_Coincide2 | sig_forall_dec, sig_not_dec, classic, funext |
| C203_rm | T_Stop | sig_forall_dec, sig_not_dec, classic, funext |
| C204_sprm | T_StopSp | sig_forall_dec, sig_not_dec, classic, funext |
| C205_rm_never | T_Tol | none |
| C205_rm_refuted | T_Tol | sig_forall_dec, sig_not_dec, classic, funext |
| C205_sprm_never | T_Tol | none |
| C206_fit | T_GridStop2 | sig_forall_dec, sig_not_dec, classic, funext |
| C206_grid | T_GridStop | sig_forall_dec, sig_not_dec, classic, funext |
| C206_near_refuted | T_GridStop | sig_forall_dec, sig_not_dec, classic, funext |
| C20_antitone | T_Radial | sig_forall_dec, sig_not_dec, classic, funext |
| C20_rules | T_Radial | sig_forall_dec, sig_not_dec, classic, funext |
| C21_enough_rows | T_Radial | sig_forall_dec, sig_not_dec, classic, funext |
| C21_more_columns | T_Radial | sig_forall_dec, sig_not_dec, classic, funext |
| C22_spatial_sign | T_Radial | sig_forall_dec, sig_not_dec, classic, funext |
| C22_unit_rows | T_Radial | sig_forall_dec, sig_not_dec, classic, funext |
| C23_behaviour | T_Radial | sig_forall_dec, sig_not_dec, classic, funext |
| C23_covariance_refuted | T_Radial | none |
| C24_argument_ignored | T_Radial | sig_forall_dec, sig_not_dec, classic, funext |
| C24_transform_refuted | T_Radial | none |
| C24_unfitted | T_Errors4 | none |
| C25_negative_cutoff | T_Msupport | sig_forall_dec, sig_not_dec, classic, funext |
| C25_weights | T_Msupport | sig_forall_dec, sig_not_dec, classic, funext |
| C26_negative_input | T_Msupport | sig_forall_dec, sig_not_dec, classic, funext |
| C26_small_cutoff | T_Msupport | sig_forall_dec, sig_not_dec, classic, funext |
| C26_textbook | T_Msupport | sig_forall_dec, sig_not_dec, classic, funext |
| C26_textbook_refuted | T_Msupport | sig_forall_dec, sig_not_dec, classic, funext |
| C27_pointwise | T_Msupport | sig_forall_dec, sig_not_dec, classic, funext |
| C28_brokenstick | T_Msupport | sig_forall_dec, sig_not_dec, classic, funext |
| C29_starting_components | T_Msupport | sig_forall_dec, sig_not_dec, classic, funext |
| C30_complete | T_Msupport | sig_forall_dec, sig_not_dec, classic, funext |
| C30_lengths | T_Errors | none |
| C30_nandot | T_Msupport | sig_forall_dec, sig_not_dec, classic, funext |
| C30_nanmatdot | T_Msupport | sig_forall_dec, sig_not_dec, classic, funext |
| C30_product_refuted | T_Msupport | none |
| C31_check_input | T_Msupport | sig_forall_dec |
| C31_predict_check_input | T_Msupport | none |
| C32_scores_orthogonal | T_Snipls | sig_forall_dec, sig_not_dec, classic, funext |
| C33_sparsity | T_Snipls | sig_forall_dec, sig_not_dec, classic, funext |
| C34_eta_monotone | T_Snipls | sig_forall_dec, sig_not_dec, classic, funext |
| C34_eta_zero | T_Snipls | sig_forall_dec, sig_not_dec, classic, funext |
| C34_exact | T_Snipls | sig_forall_dec, sig_not_dec, classic, funext |
| C34_largest_kept | T_Snipls | sig_forall_dec, sig_not_dec, classic, funext |
| C35_affine_and_errors | T_Snipls | sig_forall_dec, sig_not_dec, classic, funext |
| C35_fitted_values | T_Snipls | sig_forall_dec, sig_not_dec, classic, funext |
| C35_no_centre | T_Options3 | sig_forall_dec, sig_not_dec, classic, funext |
| C36_transform_train | T_Snipls | sig_forall_dec, sig_not_dec, classic, funext |
| C36_transform_train_refuted | T_Snipls | none |
| C37_explained_variance | T_Snipls | sig_forall_dec, sig_not_dec, classic, funext |
| C38_least_squares | T_Snipls | sig_forall_dec, sig_not_dec, classic, funext |
| C39_caseweights | T_Rm | sig_forall_dec, sig_not_dec, classic, funext |
| C39_inner_fits | T_Rm | sig_forall_dec, sig_not_dec, classic, funext |
| C40_budget | T_Rm | none |
| C40_small_budget | T_Rm | none |
| C40_terminates | T_Rm | none |
| C41_validation_exact | T_Rm | sig_forall_dec, sig_not_dec, classic, funext |
| C42_scale_none_never | T_Rm | none |
| C42_scale_none_refuted | T_Rm | sig_forall_dec, sig_not_dec, classic, funext |
| C42_supported | T_Rm | sig_forall_dec, sig_not_dec, classic, funext |
| C43_fitted_values | T_Rm | sig_forall_dec, sig_not_dec, classic, funext |
| C44_intercept_scaled_mean | T_Rm | sig_forall_dec, sig_not_dec, classic, funext |
| C44_intercept_scaled_pairs | T_Rm | sig_forall_dec, sig_not_dec, classic, funext |
| C44_intercept_scaled_refuted | T_Rm | none |
| C45_validation_exact | T_Sprm | sig_forall_dec, sig_not_dec, classic, funext |
| C46_column_count | T_Sprm | sig_forall_dec, sig_not_dec, classic, funext |
| C46_new_data | T_Sprm | sig_forall_dec, sig_not_dec, classic, funext |
| C46_same_fit | T_Sprm | sig_forall_dec, sig_not_dec, classic, funext |
| C47_caseweights | T_Sprm | sig_forall_dec, sig_not_dec, classic, funext |
| C48_batch_refuted | T_Sprm | none |
| C48_single_case | T_Sprm | none |
| C49_start_error | T_Sprm | sig_forall_dec, sig_not_dec, classic, funext |
| C49_start_refuted | T_Sprm | none |
| C49_supported | T_Sprm | sig_forall_dec, sig_not_dec, classic, funext |
| C50_variance | T_Dicomo | sig_forall_dec, sig_not_dec, classic, funext |
| C51_covariance | T_Dicomo | sig_forall_dec, sig_not_dec, classic, funext |
| C52_correlation | T_Dicomo | sig_forall_dec, sig_not_dec, classic, funext |
| C52_median_refuted | T_Dicomo | none |
| C52_trimmed_refuted | T_Dicomo | none |
| C53_bias_corrected | T_Dicomo | sig_forall_dec, sig_not_dec, classic, funext |
| C53_plain | T_Dicomo | sig_forall_dec, sig_not_dec, classic, funext |
| C54_constant_refuted | T_Dicomo | sig_forall_dec, sig_not_dec, classic, funext |
| C54_std | T_Dicomo | sig_forall_dec, sig_not_dec, classic, funext |
| C55_as_new | T_Dicomo | none |
| C55_center_refuted | T_Dicomo | none |
| C55_parameters | T_Dicomo | none |
| C55_sign_errors_refuted | T_Extra | none |
| C55_sign_refuted | T_Dicomo | none |
| C56_double_centring | T_Dicomo | sig_forall_dec, sig_not_dec, classic, funext |
| C56_u_centring | T_Dicomo | sig_forall_dec, sig_not_dec, classic, funext |
| C57_distance_covariance | T_Dicomo | sig_forall_dec, sig_not_dec, classic, funext |
| C58_exact | T_Dicomo | sig_forall_dec, sig_not_dec, classic, funext |
| C58_exponents | T_Dicomo | none |
| C58_order2 | T_Dicomo | sig_forall_dec, sig_not_dec, classic, funext |
| C58_refuted | T_Dicomo | sig_forall_dec, sig_not_dec, classic, funext |
| C59_mdd | T_Dicomo | sig_forall_dec, sig_not_dec, classic, funext |
| C59_mddm | T_Dicomo | sig_forall_dec, sig_not_dec, classic, funext |
| C60_lengths | T_Errors4 | none |
| C60_single_predictor_refuted | T_Dicomo | sig_forall_dec, sig_not_dec, classic, funext |
| C61_mdc_refuted | T_Dicomo | none |
| C61_options | T_Dicomo | none |
| C61_rejection | T_Dicomo | none |
| C62_all | T_Capi | sig_forall_dec, sig_not_dec, classic, funext |
| C62_dicomo | T_Capi | sig_forall_dec, sig_not_dec, classic, funext |
| C62_option_zero_refuted | T_Capi | sig_forall_dec, sig_not_dec, classic, funext |
| C62_options_refuted | T_Capi | sig_forall_dec, sig_not_dec, classic, funext |
| C62_prefix | T_Capi | sig_forall_dec, sig_not_dec, classic, funext |
| C63_constructor | T_Capi | none |
| C63_fit | T_Capi | sig_forall_dec, sig_not_dec, classic, funext |
| C63_set_params_refuted | T_Capi | none |
| C63_values | T_Errors2 | none |
| C64_first | T_Ppdire | sig_forall_dec, sig_not_dec, classic, funext |
| C64_second | T_Ppdire | sig_forall_dec, sig_not_dec, classic, funext |
| C64_unit | T_Ppdire | sig_forall_dec, sig_not_dec, classic, funext |
| C64_unit_second | T_Ppdire | sig_forall_dec, sig_not_dec, classic, funext |
| C65_degenerate_refuted | T_Ppdire | sig_forall_dec, sig_not_dec, funext |
| C65_first | T_Ppdire | sig_forall_dec, sig_not_dec, classic, funext |
| C65_refine | T_Ppdire | sig_forall_dec, sig_not_dec, classic, funext |
| C65_search | T_Ppdire | sig_forall_dec, sig_not_dec, classic, funext |
| C65_sweep | T_Ppdire | sig_forall_dec, sig_not_dec, classic, funext |
| C66_orthogonal | T_Ppdire | sig_forall_dec, sig_not_dec, classic, funext |
| C67_training | T_Ppdire | sig_forall_dec, sig_not_dec, classic, funext |
| C67_uncentred_refuted | T_Ppdire | sig_forall_dec, sig_not_dec, classic, funext |
| C68_no_response | T_Ppdire | sig_forall_dec, sig_not_dec, classic, funext |
| C68_predict | T_Ppdire | sig_forall_dec, sig_not_dec, classic, funext |
| C69_error | T_Ppdire | sig_forall_dec, sig_not_dec, classic, funext |
| C69_two_columns_refuted | T_Ppdire | sig_forall_dec, sig_not_dec, classic, funext |
| C70_whitening_refuted | T_Ppdire | sig_forall_dec, sig_not_dec, classic, funext |
| C71_grid_refuted | T_Ppdire | sig_forall_dec, sig_not_dec, classic, funext |
| C71_ipopt_refuted | T_Ppdire | sig_forall_dec, sig_not_dec, classic, funext |
| C71_own_options | T_Ppdire | sig_forall_dec, sig_not_dec, classic, funext |
| C72_exceptions | T_Params | none |
| C72_nested | T_Params | none |
| C72_set_get | T_Params | none |
| C72_unknown_atomic_refuted | T_Params | none |
| C73_degenerate | T_Sudire | sig_forall_dec, sig_not_dec, classic, funext |
| C73_labels | T_Sudire | sig_forall_dec, sig_not_dec, classic, funext |
| C73_monotone | T_Sudire | sig_forall_dec, sig_not_dec, classic, funext |
| C73_sizes | T_Sudire | sig_forall_dec, sig_not_dec, classic, funext |
| C74_distinct | T_Sudire | sig_forall_dec, sig_not_dec, classic, funext |
| C74_fractions | T_Sudire | sig_forall_dec, sig_not_dec, classic, funext |
| C74_too_few | T_Sudire | sig_forall_dec, sig_not_dec, classic, funext |
| C75_DR | T_Sudire | sig_forall_dec, sig_not_dec, classic, funext |
| C75_IHT | T_Sudire | sig_forall_dec, sig_not_dec, classic, funext |
| C75_PHD | T_Sudire | sig_forall_dec, sig_not_dec, classic, funext |
| C75_SAVE | T_Sudire | sig_forall_dec, sig_not_dec, classic, funext |
| C75_SIR | T_Sudire | sig_forall_dec, sig_not_dec, classic, funext |
| C75_semidefinite | T_Sudire | sig_forall_dec, sig_not_dec, classic, funext |
| C76_full | T_Sudire | sig_forall_dec, sig_not_dec, classic, funext |
| C76_projector | T_Sudire | sig_forall_dec, sig_not_dec, classic, funext |
| C77_regression | T_Sudire | sig_forall_dec, sig_not_dec, classic, funext |
| C77_training | T_Sudire | sig_forall_dec, sig_not_dec, classic, funext |
| C77_wrong_columns | T_Sudire | sig_forall_dec, sig_not_dec, classic, funext |
| C78_last | T_Sudire | sig_forall_dec, sig_not_dec, classic, funext |
| C78_pooled | T_Sudire | sig_forall_dec, sig_not_dec, classic, funext |
| C78_refuted | T_Sudire | sig_forall_dec, funext |
| C79_constraints | T_Sudire | sig_forall_dec, sig_not_dec, classic, funext |
| C79_round_trip | T_Sudire | sig_forall_dec, sig_not_dec, classic, funext |
| C79_unvec | T_Sudire | sig_forall_dec, sig_not_dec, classic, funext |
| C80_bounds | T_Ipopt | sig_forall_dec, sig_not_dec, classic, funext |
| C80_feasible | T_Ipopt | sig_forall_dec, sig_not_dec, classic, funext |
| C80_nested | T_Ipopt | sig_forall_dec, sig_not_dec, classic, funext |
| C80_single | T_Ipopt | sig_forall_dec, sig_not_dec, classic, funext |
| C80_unknown_type | T_Ipopt | sig_forall_dec, sig_not_dec, classic, funext |
| C80_values | T_Ipopt | sig_forall_dec, sig_not_dec, classic, funext |
| C81_idempotent | T_Ipopt | none |
| C81_options | T_Ipopt | sig_forall_dec, sig_not_dec, classic, funext |
| C81_sticky | T_Ipopt | sig_forall_dec, sig_not_dec, classic, funext |
| C81_tolerance | T_Options3 | none |
| C81_unchanged_refuted | T_Ipopt | sig_forall_dec, sig_not_dec, classic, funext |
| C81_values | T_Ipopt | none |
| C82_central_quadratic | T_Ipopt | sig_forall_dec, sig_not_dec, classic, funext |
| C82_consistent | T_Ipopt | sig_forall_dec, sig_not_dec, classic, funext |
| C82_forward_affine | T_Ipopt | sig_forall_dec, sig_not_dec, classic, funext |
| C82_forward_quadratic_refuted | T_Ipopt | sig_forall_dec, sig_not_dec, classic, funext |
| C82_shape | T_Ipopt | sig_forall_dec, sig_not_dec, classic, funext |
| C83_args_refuted | T_Ipopt | sig_forall_dec, sig_not_dec, classic, funext |
| C83_fun_with_grad | T_Ipopt | sig_forall_dec, sig_not_dec, classic, funext |
| C83_inplace_refuted | T_Ipopt | sig_forall_dec, sig_not_dec, classic, funext |
| C83_same_args | T_Ipopt | sig_forall_dec, sig_not_dec, classic, funext |
| C84_fair_symmetric | T_Msupport | sig_forall_dec, sig_not_dec, classic, funext |
| C84_onesided | T_Msupport | sig_forall_dec, sig_not_dec, classic, funext |
| C84_symmetric_refuted | T_Msupport | none |
| C85_in_range | T_Msupport | sig_forall_dec, sig_not_dec, classic, funext |
| C85_trichotomy | T_Msupport | sig_forall_dec, sig_not_dec, classic, funext |
| C86_all_labelled_refuted | T_Msupport | none |
| C86_labels | T_Msupport | none |
| C86_shifted | T_Msupport | none |
| C87_bars | T_Extra | sig_forall_dec, sig_not_dec, classic, funext |
| C87_labels_refuted | T_Msupport | none |
| C87_ranks | T_Errors3 | sig_forall_dec, sig_not_dec, classic, funext |
| C88_one_component_total | T_Snipls | sig_forall_dec, sig_not_dec, classic, funext |
| C89_weight_sign_exact | T_Snipls | sig_forall_dec, sig_not_dec, classic, funext |
| C89_weight_sign_refuted | T_Snipls | none |
| C90_infinite_cutoff_refuted | T_Rm | sig_forall_dec, sig_not_dec, classic, funext |
| C91_training_data | T_Sprm | sig_forall_dec, sig_not_dec, classic, funext |
| C92_budget | T_Sprm | none |
| C92_small_budget | T_Sprm | none |
| C93_only_columns_and_scale | T_Sprm | none |
| C93_refit_refuted | T_Sprm | none |
| C93_unchanged | T_Sprm | none |
| C94_residual_weights_refuted | T_Sprm | none |
| C95_positions_refuted | T_Sprm | none |
| C95_retained_names | T_Sprm | sig_forall_dec, sig_not_dec, classic, funext |
| C96_normal_score | T_Sprm | sig_forall_dec, sig_not_dec, classic, funext |
| C96_weighted_score_refuted | T_Sprm | sig_forall_dec, sig_not_dec, classic, funext |
| C97_cok_biascorr_refuted | T_Dicomo | none |
| C97_invariant | T_Dicomo | sig_forall_dec, sig_not_dec, classic, funext |
| C97_self | T_Dicomo | sig_forall_dec, sig_not_dec, classic, funext |
| C98_continuum | T_Dicomo | sig_forall_dec, sig_not_dec, classic, funext |
| C99_fast_correlation | T_Dicomo2 | sig_forall_dec, sig_not_dec, classic, funext |
| C99_fast_is_naive | T_Dicomo | sig_forall_dec, sig_not_dec, classic, funext |
