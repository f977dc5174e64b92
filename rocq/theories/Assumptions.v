(** Generated by tools/gen.py: the axioms each theorem rests on. *)
From Verif Require Import ThmAbsent ThmAgree ThmAlgebra ThmAlign ThmApart ThmApart2 ThmApart3 ThmAttain ThmBack ThmBudget ThmBuild ThmCall ThmCan ThmChain ThmCheck ThmClasses ThmClasses2 ThmClose ThmCol ThmConst ThmContracts ThmCoord ThmCopies ThmCoralAuto ThmCoralReg ThmCov ThmCtor ThmDasvmEnd ThmData ThmDeep ThmDefaults ThmDev ThmDomArg ThmDrop ThmEqual ThmExamples ThmFW ThmFact ThmFail ThmFeatures ThmFetch ThmFetch2 ThmFetch3 ThmFinite ThmFloat ThmFolds ThmFrame ThmGen ThmGrad ThmGroups ThmHalt ThmHist ThmHist2 ThmHold ThmHolds ThmHull ThmInt ThmInv ThmInv2 ThmIsolated ThmJdot ThmJdot2 ThmKeepOrder ThmKliep ThmKmeans ThmKnob ThmLabelLoss ThmLayers ThmLeak ThmLeast ThmLimit ThmLoss ThmMany ThmMap ThmMass ThmMetrics ThmMmd ThmMmdls ThmModule ThmMonge ThmName ThmNest ThmNet ThmNumber ThmOT ThmOneClass ThmOneClass2 ThmOrder ThmOrder2 ThmOrder3 ThmPack ThmPackOld ThmParam ThmPart ThmPart2 ThmPath ThmPipe ThmPredict ThmQuantile ThmQuantile2 ThmRank ThmRbf ThmRecal ThmReserved ThmRew2 ThmReweight ThmRisk ThmRot ThmSame ThmSame2 ThmScale ThmScorer ThmScorer2 ThmSeed ThmSeed2 ThmSeed3 ThmSeedRows ThmSel2 ThmSelect ThmSelf ThmSingle ThmSingle2 ThmSolvers ThmSpectral ThmSplit ThmStages ThmSub ThmTargetOnly ThmTight ThmTight2 ThmTight3 ThmTight4 ThmTight5 ThmTight6 ThmTight7 ThmTight8 ThmTrade ThmTrain ThmTurn ThmTwice ThmUnbiased ThmUndo ThmUnit ThmUtils ThmView ThmWrap.
Print Assumptions C01_split_exact.
Print Assumptions C01_split_partition.
Print Assumptions C01_split_aligned.
Print Assumptions C01_split_errors.
Print Assumptions C02_split_merge_roundtrip.
Print Assumptions C03_merge_places_rows_partial.
Print Assumptions C03_merge_values_unchanged_partial.
Print Assumptions C03_merge_values_unchanged_refuted.
Print Assumptions C03_merge_miscount_rejected.
Print Assumptions C03_merge_bad_call_rejected.
Print Assumptions C04_column_masked.
Print Assumptions C04_columns_refused.
Print Assumptions C04_missing_target_masked.
Print Assumptions C04_missing_source_masked.
Print Assumptions C05_check_X_domain_accepts_partial.
Print Assumptions C05_check_X_domain_only_ValueError.
Print Assumptions C05_check_X_domain_documented_partial.
Print Assumptions C05_allow_multi_target_refuted.
Print Assumptions C05_check_X_y_domain_accepts_partial.
Print Assumptions C05_check_X_y_domain_length_refuted.
Print Assumptions C06_auto_domain_discrete.
Print Assumptions C06_auto_domain_continuous.
Print Assumptions C06_auto_domain_rejects.
Print Assumptions C06_defaults_without_labels.
Print Assumptions C07_domains_indices_exact.
Print Assumptions C07_positions_increasing_and_exact.
Print Assumptions C07_split_source_target.
Print Assumptions C07_per_domain_split_exact.
Print Assumptions C08_frank_wolfe_feasible.
Print Assumptions C08_frank_wolfe_returns.
Print Assumptions C08_zero_iterations_infeasible.
Print Assumptions C09_linear_minimiser.
Print Assumptions C10_equality.
Print Assumptions C10_two_sided.
Print Assumptions C10_one_sided.
Print Assumptions C10_nearly_opposite.
Print Assumptions C10_rejects.
Print Assumptions C10_bounds_ignored_refuted.
Print Assumptions C10_both_constraints_refuted.
Print Assumptions C10_negative_lower_bound_refuted.
Print Assumptions C11_fit_drops_masked_discrete.
Print Assumptions C11_fit_drops_masked_continuous.
Print Assumptions C11_fit_keeps_all_otherwise.
Print Assumptions C11_python_list_rejected.
Print Assumptions C12_outputs_land_on_their_rows.
Print Assumptions C12_uncovered_rows_zero.
Print Assumptions C12_container_outputs_land.
Print Assumptions C12_mixed_dtype_refuted.
Print Assumptions C13_shared_no_target_label_leak.
Print Assumptions C13_per_domain_no_target_label_leak.
Print Assumptions C13_masked_call.
Print Assumptions C13_label_kind_premise_needed.
Print Assumptions C14_fit_overwrites_caller_labels_refuted.
Print Assumptions C14_caller_labels_after_fit_partial.
Print Assumptions C14_caller_labels_unchanged_partial.
Print Assumptions C15_per_domain_fit_calls.
Print Assumptions C15_per_domain_routes_rows.
Print Assumptions C15_unseen_label_rejected.
Print Assumptions C16_domain_aware_estimators.
Print Assumptions C16_per_domain_masked_fit_always_fails_refuted.
Print Assumptions C17_select_side_rows.
Print Assumptions C17_select_side_plain.
Print Assumptions C17_select_target_refuses_masking.
Print Assumptions C18_fit_each_side.
Print Assumptions C18_fit_each_side_plain.
Print Assumptions C18_fit_needs_both_sides.
Print Assumptions C18_predict_each_side.
Print Assumptions C18_in_pipeline.
Print Assumptions C19_metadata_override.
Print Assumptions C20_step_names.
Print Assumptions C20_unnamed_steps_distinct.
Print Assumptions C20_user_name_collision_refuted.
Print Assumptions C21_empty_call.
Print Assumptions C21_flat_and_only_last_final.
Print Assumptions C21_stale_final_flag_refuted.
Print Assumptions C21_bad_selector_rejected.
Print Assumptions C22_masking_stops_at_label_predictor_partial.
Print Assumptions C22_prewrapped_predictor_refuted.
Print Assumptions C23_pack_layout.
Print Assumptions C23_pack_unknown_name.
Print Assumptions C23_pack_nothing.
Print Assumptions C24_target_labels_masked_partial.
Print Assumptions C24_unmasked_labels_unchanged.
Print Assumptions C24_other_dtypes_unmasked_refuted.
Print Assumptions C24_pack_train.
Print Assumptions C24_pack_test.
Print Assumptions C25_domains_retrievable_partial.
Print Assumptions C25_distinct_history.
Print Assumptions C25_duplicate_name_refused.
Print Assumptions C25_generated_name_overwrites_refuted.
Print Assumptions C25_merge_unlabelled_refuted.
Print Assumptions C25_constructor.
Print Assumptions C25_constructor_bad_tuple_refuted.
Print Assumptions C26_pack_then_select.
Print Assumptions C26_pack_then_per_domain_split.
Print Assumptions C27_select_domain_exact.
Print Assumptions C27_select_domain_known.
Print Assumptions C27_unknown_name.
Print Assumptions C28_shuffle_split_exact.
Print Assumptions C28_shuffle_split_succeeds.
Print Assumptions C29_sizes_exact.
Print Assumptions C29_test_part_nonempty.
Print Assumptions C29_impossible_rejected.
Print Assumptions C30_leave_one_domain_out.
Print Assumptions C30_number_of_splits.
Print Assumptions C30_zero_domain_raises.
Print Assumptions C31_stratified_groups_exact.
Print Assumptions C31_stratified_succeeds.
Print Assumptions C31_stratified_rejects.
Print Assumptions C32_domain_shuffle_split.
Print Assumptions C32_fraction_range.
Print Assumptions C33_seeded_rows.
Print Assumptions C33_subsample_aligned.
Print Assumptions C33_keep_all_unchanged.
Print Assumptions C33_plain_indices_distinct.
Print Assumptions C33_stratified_indices_distinct.
Print Assumptions C34_gaussian.
Print Assumptions C34_density.
Print Assumptions C34_discriminator_labels.
Print Assumptions C34_discriminator.
Print Assumptions C34_kliep.
Print Assumptions C34_kmm.
Print Assumptions C34_fit_transform.
Print Assumptions C35_density_mean_one.
Print Assumptions C35_underflow_refuted.
Print Assumptions C36_reversed_order.
Print Assumptions C36_grows_with_target_likeness_refuted.
Print Assumptions C37_kliep_mean_one.
Print Assumptions C38_exact_counts.
Print Assumptions C38_mirrored_partial.
Print Assumptions C38_counts_targets_refuted.
Print Assumptions C39_kmm_mean_bounds.
Print Assumptions C39_negative_eps.
Print Assumptions C39_upper_bound_refuted.
Print Assumptions C40_ot_transform.
Print Assumptions C40_ot_fit_transform.
Print Assumptions C40_sources_rejected.
Print Assumptions C41_subspace_alignment.
Print Assumptions C41_transfer_subspace.
Print Assumptions C41_kernel_new_data.
Print Assumptions C41_kernel_block_order_partial.
Print Assumptions C41_interleaved_refuted.
Print Assumptions C42_one_iteration.
Print Assumptions C42_stops_early_refuted.
Print Assumptions C42_later_stops_partial.
Print Assumptions C42_negative_tolerance.
Print Assumptions C42_no_iteration.
Print Assumptions C43_transform.
Print Assumptions C43_unseen_domain.
Print Assumptions C43_fit.
Print Assumptions C43_integer_input_refuted.
Print Assumptions C44_target_rows.
Print Assumptions C44_source_independent.
Print Assumptions C45_weights.
Print Assumptions C46_sum.
Print Assumptions C46_mean_value.
Print Assumptions C46_none_value.
Print Assumptions C46_mean_none_refuted.
Print Assumptions C47_mean_of_entropies.
Print Assumptions C48_column_loss_partial.
Print Assumptions C48_default_loss_value.
Print Assumptions C48_weights.
Print Assumptions C48_default_loss_refuted.
Print Assumptions C48_parts.
Print Assumptions C49_roles_swapped.
Print Assumptions C49_score.
Print Assumptions C49_source_labels_unused.
Print Assumptions C49_source_zero_refuted.
Print Assumptions C50_mixval.
Print Assumptions C51_power_mean.
Print Assumptions C51_probabilities.
Print Assumptions C51_softmax.
Print Assumptions C51_taylor.
Print Assumptions C51_deep.
Print Assumptions C52_discrete_labels.
Print Assumptions C52_regression_labels.
Print Assumptions C52_ignores_target_labels.
Print Assumptions C52_by_values.
Print Assumptions C53_jcpot_labels_partial.
Print Assumptions C53_jcpot_columns.
Print Assumptions C53_target_order_refuted.
Print Assumptions C53_label_values_refuted.
Print Assumptions C54_label_loss.
Print Assumptions C54_regression_run.
Print Assumptions C54_regression_succeeds.
Print Assumptions C54_no_iteration.
Print Assumptions C54_classification_run.
Print Assumptions C55_fitting_data.
Print Assumptions C55_triples.
Print Assumptions C55_empty_raises.
Print Assumptions C56_selection_step.
Print Assumptions C56_progress.
Print Assumptions C56_at_most_one_per_class.
Print Assumptions C56_k_per_class_refuted.
Print Assumptions C56_first_selection.
Print Assumptions C56_iteration.
Print Assumptions C57_predict_and_decision.
Print Assumptions C57_proba_is_source_model.
Print Assumptions C57_proba_refuted.
Print Assumptions C58_interpolated.
Print Assumptions C59_number_of_samples.
Print Assumptions C59_advanced.
Print Assumptions C59_completes_partial.
Print Assumptions C59_ties_refuted.
Print Assumptions C60_epoch.
Print Assumptions C60_batches.
Print Assumptions C60_small_sides_give_no_batch.
Print Assumptions C60_one_side.
Print Assumptions C61_batches.
Print Assumptions C61_unknown_side.
Print Assumptions C62_constructor.
Print Assumptions C62_constructor_accepts.
Print Assumptions C62_select_source.
Print Assumptions C62_select_target.
Print Assumptions C62_select_domain.
Print Assumptions C62_select_with_labels.
Print Assumptions C62_select_condition.
Print Assumptions C62_numbers_kept.
Print Assumptions C62_partition.
Print Assumptions C62_per_domain_split.
Print Assumptions C62_merge.
Print Assumptions C62_merge_mixed_weights.
Print Assumptions C62_items.
Print Assumptions C62_weights.
Print Assumptions C62_copy.
Print Assumptions C62_dict.
Print Assumptions C63_source_labels_only.
Print Assumptions C63_target_labels_unused.
Print Assumptions C64_aligned.
Print Assumptions C64_zero_labels_raise_refuted.
Print Assumptions C64_reduced_loss_raises.
Print Assumptions C64_wrong_weights_refuted.
Print Assumptions C64_no_weights.
Print Assumptions C64_single_source.
Print Assumptions C65_moving_average_refuted.
Print Assumptions C65_decay.
Print Assumptions C65_runs.
Print Assumptions C65_ignores_features.
Print Assumptions C65_start.
Print Assumptions C66_constant_refuted.
Print Assumptions C66_dann_constant.
Print Assumptions C66_two_outputs.
Print Assumptions C67_mcc_bounded.
Print Assumptions C67_mcc_value.
Print Assumptions C68_best_run.
Print Assumptions C68_run.
Print Assumptions C68_tolerance.
Print Assumptions C68_iterations.
Print Assumptions C68_degenerate.
Print Assumptions C68_best_initialisation.
Print Assumptions C69_first_fit.
Print Assumptions C69_ranges.
Print Assumptions C69_restart_refuted.
Print Assumptions C70_shapes.
Print Assumptions C70_cost.
Print Assumptions C70_default_criterion.
Print Assumptions C70_unequal_sizes.
Print Assumptions C71_all_pairs.
Print Assumptions C71_own_label_refuted.
Print Assumptions C71_agreeing_labels.
Print Assumptions C71_mdd_loss.
Print Assumptions C72_sizes.
Print Assumptions C72_succeeds.
Print Assumptions C72_target_shift.
Print Assumptions C73_any_selectors_partial.
Print Assumptions C73_chain_no_target_label_leak_partial.
Print Assumptions C73_select_target_then_masked_refuted.
Print Assumptions C74_clone_default_masking_partial.
Print Assumptions C74_source_target_clone_fails_refuted.
Print Assumptions C74_clone_reenables_masking_refuted.
Print Assumptions C74_clone_loses_final_refuted.
Print Assumptions C75_nesting_changes_inner_refuted.
Print Assumptions C75_nesting_frame_partial.
Print Assumptions C76_bunch_names_partial.
Print Assumptions C76_both_ways_refuted.
Print Assumptions C77_pack_lodo.
Print Assumptions C77_default_ignores_return_type_refuted.
Print Assumptions C78_converges.
Print Assumptions C78_gap_vanishes.
Print Assumptions C78_single_row_refuted.
Print Assumptions C79_scipy_problem.
Print Assumptions C79_start.
Print Assumptions C80_single_bandwidth.
Print Assumptions C80_selects_best_bandwidth.
Print Assumptions C80_refit_single_partial.
Print Assumptions C80_refit_numbers_partial.
Print Assumptions C80_refit_equals_fresh_fit_refuted.
Print Assumptions C81_tars_fit.
Print Assumptions C81_tars_weights.
Print Assumptions C82_softmax_unaffected_partial.
Print Assumptions C82_taylor_refuted.
Print Assumptions C83_defined.
Print Assumptions C83_three_distinct.
Print Assumptions C83_undefined.
Print Assumptions C83_taylor_zero_refuted.
Print Assumptions C84_sources_first_partial.
Print Assumptions C84_interleaved_refuted.
Print Assumptions C85_mmd_matrix.
Print Assumptions C85_centring_matrix.
Print Assumptions C86_row_order.
Print Assumptions C86_assume_centered.
Print Assumptions C86_covariance_match.
Print Assumptions C86_moment_match.
Print Assumptions C86_square_roots.
Print Assumptions C86_eigensolver_exists.
Print Assumptions C87_training_sources.
Print Assumptions C87_known_classes.
Print Assumptions C87_nearest.
Print Assumptions C87_unseen_class.
Print Assumptions C87_fit.
Print Assumptions C88_label_cost.
Print Assumptions C88_better_class_is_cheaper.
Print Assumptions C88_more_probable_is_cheaper.
Print Assumptions C88_binary_hinge_refuted.
Print Assumptions C89_moved_labels_in_range.
Print Assumptions C89_label_propagation_in_range.
Print Assumptions C89_jdot_fits_in_range.
Print Assumptions C90_jdot_inputs.
Print Assumptions C90_ignores_target_labels.
Print Assumptions C91_label_propagation_marginals.
Print Assumptions C91_jdot_regression_marginals.
Print Assumptions C91_jdot_classification_marginals.
Print Assumptions C92_class_weights.
Print Assumptions C92_weights_of_a_target.
Print Assumptions C92_threshold.
Print Assumptions C93_only_through_the_plan.
Print Assumptions C93_target_labels_used_refuted.
Print Assumptions C94_max_iter_grows.
Print Assumptions C94_refit_refuted.
Print Assumptions C95_exact.
Print Assumptions C95_completes_partial.
Print Assumptions C95_all_added_raises.
Print Assumptions C95_fit_raises_refuted.
Print Assumptions C96_training_sets.
Print Assumptions C96_target_labels_unused.
Print Assumptions C97_self_training.
Print Assumptions C98_loop_misses_added_refuted.
Print Assumptions C98_new_dataset.
Print Assumptions C98_in_place.
Print Assumptions C99_defaults.
Print Assumptions C99_int_domain_refuted.
Print Assumptions C100_target_rows.
Print Assumptions C100_all_rows.
Print Assumptions C100_arrays.
Print Assumptions C101_accuracy.
Print Assumptions C101_weighted.
Print Assumptions C101_mixed_raises_refuted.
Print Assumptions C102_no_domain_raises_refuted.
Print Assumptions C102_allow_source.
Print Assumptions C103_value.
Print Assumptions C103_zero_iff.
Print Assumptions C103_shift.
Print Assumptions C103_assume_centered_refuted.
Print Assumptions C104_value.
Print Assumptions C104_default_bandwidths.
Print Assumptions C104_nonneg.
Print Assumptions C104_same_batch.
Print Assumptions C104_bounded.
Print Assumptions C104_symmetric.
Print Assumptions C104_gaussian_refuted.
Print Assumptions C105_needs_kmeans.
Print Assumptions C105_value_refuted.
Print Assumptions C105_filter_refuted.
Print Assumptions C105_value.
Print Assumptions C105_kept.
Print Assumptions C105_no_valid_class.
Print Assumptions C105_single_class_error.
Print Assumptions C106_single_target.
Print Assumptions C106_shared_slot_refuted.
Print Assumptions C107_descent.
Print Assumptions C107_steps.
Print Assumptions C107_inertia_converged.
Print Assumptions C107_predict_scale.
Print Assumptions C107_inertia_refuted.
Print Assumptions C107_nearest.
Print Assumptions C107_inertia_value.
Print Assumptions C107_never_worse.
Print Assumptions C108_centroids.
Print Assumptions C108_other_labels_refuted.
Print Assumptions C109_multilinear.
Print Assumptions C109_width.
Print Assumptions C109_same_projection.
Print Assumptions C109_global_generator_refuted.
Print Assumptions C109_no_seed_refuted.
Print Assumptions C109_random_map.
Print Assumptions C110_neighbours.
Print Assumptions C110_pseudo_label.
Print Assumptions C110_too_few.
Print Assumptions C110_loss.
Print Assumptions C111_clusters.
Print Assumptions C111_subspace_binary.
Print Assumptions C111_subspace_mislabelled_refuted.
Print Assumptions C111_subspace_split_refuted.
Print Assumptions C112_covariate.
Print Assumptions C112_target.
Print Assumptions C112_conditional.
Print Assumptions C112_subspace.
Print Assumptions C112_labels_kept.
Print Assumptions C112_standardized.
Print Assumptions C113_subspace_refuted.
Print Assumptions C113_labels.
Print Assumptions C114_translation.
Print Assumptions C114_accepts.
Print Assumptions C114_labels.
Print Assumptions C115_centres.
Print Assumptions C115_end_refuted.
Print Assumptions C115_layout.
Print Assumptions C115_names.
Print Assumptions C116_labels.
Print Assumptions C116_too_many.
Print Assumptions C116_dataset.
Print Assumptions C116_frequencies.
Print Assumptions C116_weights_refuted.
Print Assumptions C117_exposed.
Print Assumptions C117_source_target_partial.
Print Assumptions C117_source_target_predict_refuted.
Print Assumptions C118_transformer_first_partial.
Print Assumptions C118_same_kind.
Print Assumptions C118_predictor_first_refuted.
Print Assumptions C119_per_domain_score_refuted.
Print Assumptions C119_source_target_score_refuted.
Print Assumptions C119_per_domain_arrays.
Print Assumptions C119_source_target_arrays.
Print Assumptions C119_transform_without_labels.
Print Assumptions C119_shared_score_partial.
Print Assumptions C120_construct.
Print Assumptions C120_set_then_get.
Print Assumptions C120_replace_base.
Print Assumptions C120_mask_not_a_parameter_refuted.
Print Assumptions C120_source_target_refuted.
Print Assumptions C120_clone.
Print Assumptions C121_shared_fit_then_transform.
Print Assumptions C121_labels_after.
Print Assumptions C121_per_domain_refuted.
Print Assumptions C121_source_target_refuted.
Print Assumptions C122_predictor_receives.
Print Assumptions C122_unset_adapter_output_reported.
Print Assumptions C122_unset_user_parameter_reported.
Print Assumptions C122_adapter_output_dropped_refuted.
Print Assumptions C122_source_target_report_refuted.
Print Assumptions C123_inner_transformer_partial.
Print Assumptions C123_alias_refuted.
Print Assumptions C124_side_keeps_scalars.
Print Assumptions C124_per_domain_refuted.
Print Assumptions C125_alignment_is_closest.
Print Assumptions C125_default_components.
Print Assumptions C125_own_domain.
Print Assumptions C125_default_refuted.
Print Assumptions C126_contracts_met.
Print Assumptions C126_no_shift_case.
Print Assumptions C126_kernel_matrix.
Print Assumptions C126_not_optimal_refuted.
Print Assumptions C127_pca.
Print Assumptions C127_flda_loss_is_separation_refuted.
Print Assumptions C127_flda_refuted.
Print Assumptions C127_lpp_loss_is_minus_spread_refuted.
Print Assumptions C127_lpp_refuted.
Print Assumptions C128_contracts_met.
Print Assumptions C128_symmetric_and_zero.
Print Assumptions C128_negative_refuted.
Print Assumptions C129_contract_met.
Print Assumptions C129_constructor.
Print Assumptions C129_orthonormal.
Print Assumptions C129_objective.
Print Assumptions C130_torch_minimize.
Print Assumptions C131_plain.
Print Assumptions C131_unknown_refused.
Print Assumptions C131_nearest_ignores.
Print Assumptions C131_nearest_refuted.
Print Assumptions C131_nearest_clone.
Print Assumptions C131_checks_refuted.
Print Assumptions C131_kernel_check_refuted.
Print Assumptions C132_plain.
Print Assumptions C132_jdot_refuted.
Print Assumptions C132_jdot_loses.
Print Assumptions C132_none_refuted.
Print Assumptions C132_fresh_clone.
Print Assumptions C133_unknown_refused.
Print Assumptions C133_missing_refused.
Print Assumptions C133_dasvm_refuted.
Print Assumptions C133_dasvm_drops.
Print Assumptions C134_ensemble_refuted.
Print Assumptions C134_plain_estimator.
Print Assumptions C134_length.
Print Assumptions C134_default.
Print Assumptions C134_identity_test.
Print Assumptions C134_explicit_default.
Print Assumptions C134_defaults_usable.
Print Assumptions C134_left_out.
Print Assumptions C135_per_call.
Print Assumptions C135_fresh.
Print Assumptions C135_class_reg_refuted.
Print Assumptions C135_class_reg_shared.
Print Assumptions C136_features.
Print Assumptions C136_returned.
Print Assumptions C136_unknown_layer.
Print Assumptions C137_independent.
Print Assumptions C137_fitted.
Print Assumptions C137_clone_unfitted.
Print Assumptions C137_untrained.
Print Assumptions C137_trained_refuted.
Print Assumptions C137_refit_refuted.
Print Assumptions C137_clone_weights_refuted.
Print Assumptions C137_cdan_refuted.
Print Assumptions C138_with_parameter.
Print Assumptions C138_no_parameter_refuted.
Print Assumptions C138_cdan_weights_refuted.
Print Assumptions C139_probabilities.
Print Assumptions C139_labels.
Print Assumptions C139_first_largest.
Print Assumptions C139_refused.
Print Assumptions C139_other_criterion_refuted.
Print Assumptions C140_rows.
Print Assumptions C140_dataset.
Print Assumptions C140_empty.
Print Assumptions C141_nonneg.
Print Assumptions C141_symmetric.
Print Assumptions C141_order.
Print Assumptions C141_rigid.
Print Assumptions C141_zero.
Print Assumptions C141_defined.
Print Assumptions C141_refused.
Print Assumptions C141_value.
Print Assumptions C141_cosine_scale.
Print Assumptions C142_default.
Print Assumptions C142_single.
Print Assumptions C142_list_once.
Print Assumptions C142_list_refuted.
Print Assumptions C143_source_only.
Print Assumptions C143_target_only.
Print Assumptions C143_target_weights_refuted.
Print Assumptions C144_dann.
Print Assumptions C144_cdan_refused.
Print Assumptions C144_cdan_size.
Print Assumptions C144_mdd_refuted.
Print Assumptions C144_mdd.
Print Assumptions C145_chain.
Print Assumptions C145_features.
Print Assumptions C145_classifier.
Print Assumptions C146_nonneg.
Print Assumptions C146_start.
Print Assumptions C146_terms.
Print Assumptions C147_completed.
Print Assumptions C147_no_rewrite.
Print Assumptions C147_early.
Print Assumptions C147_interrupted_refuted.
Print Assumptions C147_amazon_interrupted_refuted.
Print Assumptions C147_concurrent_refuted.
Print Assumptions C147_silent_refuted.
Print Assumptions C148_rows.
Print Assumptions C148_names.
Print Assumptions C148_same_labels.
Print Assumptions C148_refused.
Print Assumptions C148_categories.
Print Assumptions C149_one_of_all.
Print Assumptions C149_partition.
Print Assumptions C149_amazon.
Print Assumptions C150_rows.
Print Assumptions C150_range.
Print Assumptions C150_all_refuted.
Print Assumptions C151_labels_from_zero.
Print Assumptions C151_one_per_sample.
Print Assumptions C151_range.
Print Assumptions C151_other_labels_refuted.
Print Assumptions C151_float_labels_refuted.
Print Assumptions C152_features.
Print Assumptions C152_domain_free.
Print Assumptions C152_sources_unmapped.
Print Assumptions C152_same_features_refuted.
Print Assumptions C152_source_target_refuted.
Print Assumptions C152_per_domain_refuted.
Print Assumptions C152_no_transform.
Print Assumptions C152_unnamed_layer.
Print Assumptions C153_folds.
Print Assumptions C153_selected.
Print Assumptions C153_held_out.
Print Assumptions C153_refuses.
Print Assumptions C153_fit.
Print Assumptions C154_fit.
Print Assumptions C154_problem.
Print Assumptions C154_lengths.
Print Assumptions C154_weights.
Print Assumptions C154_label_function_refuted.
Print Assumptions C155_none.
Print Assumptions C155_number.
Print Assumptions C155_number_centered.
Print Assumptions C155_refused.
Print Assumptions C155_auto.
Print Assumptions C155_covariance.
Print Assumptions C155_definite.
Print Assumptions C155_translation.
Print Assumptions C155_assume_centered_refuted.
Print Assumptions C155_coral.
Print Assumptions C155_auto_constant.
Print Assumptions C156_translation.
Print Assumptions C156_units.
Print Assumptions C156_no_shift.
Print Assumptions C157_proba_offered.
Print Assumptions C157_domain_information.
Print Assumptions C157_direct.
Print Assumptions C157_direct_score.
Print Assumptions C157_allow_source_refuted.
Print Assumptions C157_chain_refuted.
Print Assumptions C157_chain.
Print Assumptions C157_not_fitted.
Print Assumptions C157_weights_not_dropped.
Print Assumptions C158_dict_keys.
Print Assumptions C158_arrays.
Print Assumptions C158_arrays_without_weights.
Print Assumptions C158_dict.
Print Assumptions C158_dict_X.
Print Assumptions C158_repairs.
Print Assumptions C158_len.
Print Assumptions C158_domains.
Print Assumptions C158_add_domain.
Print Assumptions C158_add_domain_weights_refuted.
Print Assumptions C159_weights.
Print Assumptions C159_rows.
Print Assumptions C159_successful.
Print Assumptions C159_recover.
Print Assumptions C159_type_errors.
Print Assumptions C159_refused_weights_refuted.
Print Assumptions C159_refused_merge_refuted.
Print Assumptions C160_given.
Print Assumptions C160_estimator.
Print Assumptions C160_defaults.
Print Assumptions C160_linear_default_refuted.
Print Assumptions C160_unknown.
Print Assumptions C160_accepts.
Print Assumptions C160_weights.
Print Assumptions C160_label_propagation_default.
Print Assumptions C161_split.
Print Assumptions C161_merge.
Print Assumptions C161_weight_models.
Print Assumptions C161_weights.
Print Assumptions C161_maps.
Print Assumptions C161_kernel_maps.
Print Assumptions C161_estimators.
Print Assumptions C161_shuffle_split.
Print Assumptions C161_scores.
Print Assumptions C161_selectors.
Print Assumptions C162_indices.
Print Assumptions C162_per_domain_fit.
Print Assumptions C162_per_domain_predict.
Print Assumptions C162_monge.
Print Assumptions C162_splitters.
Print Assumptions C162_label_propagation.
Print Assumptions C162_leave_one_out.
Print Assumptions C163_density_fit.
Print Assumptions C163_discriminator_fit.
Print Assumptions C163_gaussian_weights.
Print Assumptions C163_kliep_weights.
Print Assumptions C163_density_weights.
Print Assumptions C163_discriminator_weights.
Print Assumptions C163_maps.
Print Assumptions C163_kernel_maps.
Print Assumptions C163_monge.
Print Assumptions C163_per_domain.
Print Assumptions C163_supervised.
Print Assumptions C163_entropy.
Print Assumptions C163_soft_neighborhood.
Print Assumptions C163_importance.
Print Assumptions C163_covariance.
Print Assumptions C163_moments_fit.
Print Assumptions C164_deep_coral.
Print Assumptions C164_dan.
Print Assumptions C164_mcc.
Print Assumptions C164_mdd.
Print Assumptions C164_can.
Print Assumptions C165_toy2d_training_average.
Print Assumptions C165_mnist_training_average.
Print Assumptions C165_mnist_first_dropout.
Print Assumptions C165_conv1.
Print Assumptions C165_conv3.
Print Assumptions C165_maxpool.
Print Assumptions C165_flatten.
Print Assumptions C165_pool.
Print Assumptions C165_linear.
Print Assumptions C165_relu.
Print Assumptions C165_toy2d_sample_wise.
Print Assumptions C165_toy2d_shape.
Print Assumptions C165_toy2d_proba.
Print Assumptions C165_dropout_mean.
Print Assumptions C165_cnn_num_features.
Print Assumptions C165_cnn_new.
Print Assumptions C165_cnn_sample_wise.
Print Assumptions C165_cnn_shape.
Print Assumptions C165_mnist_sample_wise.
Print Assumptions C165_mnist_accepts.
Print Assumptions C165_mnist_shape.
Print Assumptions C166_names.
Print Assumptions C166_reg_refuted.
Print Assumptions C166_without_reg.
Print Assumptions C166_missing.
Print Assumptions C166_unknown.
Print Assumptions C166_module_class_refuted.
Print Assumptions C166_base_class_refuted.
Print Assumptions C166_domain_class_refuted.
Print Assumptions C166_layer_ignored_refuted.
Print Assumptions C167_dann.
Print Assumptions C167_mdd.
Print Assumptions C167_divergences.
Print Assumptions C167_deepjdot.
Print Assumptions C167_spa.
Print Assumptions C167_baselines.
Print Assumptions C167_defaults.
Print Assumptions C167_base_default.
Print Assumptions C167_class_labels.
Print Assumptions C168_tensors.
Print Assumptions C168_labels_visible_refuted.
Print Assumptions C168_mask_value_refuted.
Print Assumptions C168_mask_value_arrays.
Print Assumptions C168_arrays.
Print Assumptions C168_arrays_to_tensors_refuted.
Print Assumptions C168_unlabelled_refuted.
Print Assumptions C169_int_splits.
Print Assumptions C169_int_leave_one_out.
Print Assumptions C169_more_splits.
Print Assumptions C169_more_domains.
Print Assumptions C169_continue.
Print Assumptions C169_seeding_before.
Print Assumptions C169_int_others.
Print Assumptions C169_seeding_before_others.
Print Assumptions C169_int_kliep.
Print Assumptions C169_source_target_valid.
Print Assumptions C169_source_target_succeeds.
Print Assumptions C169_domain_shuffle_valid.
Print Assumptions C169_leave_one_out_valid.
Print Assumptions C169_stratified_valid.
Print Assumptions C169_shuffle_keeps_pairs.
Print Assumptions C169_generated_int.
Print Assumptions C169_generated_instance_refuted.
Print Assumptions C169_generated_none.
Print Assumptions C169_clustering_ignores_seed_refuted.
Print Assumptions C169_fetch_default_refuted.
Print Assumptions C169_clustering_refuted.
Print Assumptions C169_shuffle_rows.
Print Assumptions C169_pairing.
Print Assumptions C169_stratified_refused.
Print Assumptions C170_maps.
Print Assumptions C170_coral_centred.
Print Assumptions C170_ot_map.
Print Assumptions C170_kernel_maps.
Print Assumptions C170_kernel_maps_sources_first.
Print Assumptions C170_monge.
Print Assumptions C170_mmdls_classes.
Print Assumptions C170_mmdls_nearest.
Print Assumptions C170_kernel_training_refuted.
Print Assumptions C170_gaussian.
Print Assumptions C170_kliep.
Print Assumptions C170_density.
Print Assumptions C170_discriminator.
Print Assumptions C170_kmm.
Print Assumptions C170_mmdtars.
Print Assumptions C170_per_domain.
Print Assumptions C170_source_target.
Print Assumptions C170_kmm_training_refuted.
Print Assumptions C171_any_case.
Print Assumptions C171_unknown.
Print Assumptions C171_all.
Print Assumptions C171_all_raises.
Print Assumptions C171_office31_hidden.
Print Assumptions C171_amazon_regression_refuted.
Print Assumptions C171_home_all.
Print Assumptions C171_home_visible_refuted.
Print Assumptions C171_container.
Print Assumptions C171_container_refuted.
Print Assumptions C171_csv.
Print Assumptions C171_csv_refused.
Print Assumptions C171_data_home.
Print Assumptions C172_none_supervised.
Print Assumptions C172_function_supervised.
Print Assumptions C172_function_importance.
Print Assumptions C172_function_mixval.
Print Assumptions C172_string_supervised_refuted.
Print Assumptions C172_function_refuted.
Print Assumptions C172_string_refuted.
Print Assumptions C172_unknown.
Print Assumptions C172_options.
Print Assumptions C172_made_supervised.
Print Assumptions C172_made_mixval.
Print Assumptions C173_estimators.
Print Assumptions C173_like_new.
Print Assumptions C173_order.
Print Assumptions C173_recorded.
Print Assumptions C173_value.
Print Assumptions C173_kept.
Print Assumptions C174_motion.
Print Assumptions C174_kliep.
Print Assumptions C174_kliep_cv.
Print Assumptions C174_density.
Print Assumptions C174_kmm.
Print Assumptions C174_nearest.
Print Assumptions C174_mmdtars.
Print Assumptions C174_mmdtars_continuous.
Print Assumptions C174_kernel_maps.
Print Assumptions C174_labels.
Print Assumptions C174_instances.
Print Assumptions C174_units.
Print Assumptions C174_scale_sees_origin.
Print Assumptions C175_parameters.
Print Assumptions C175_reading.
Print Assumptions C175_forget.
Print Assumptions C176_jdot.
Print Assumptions C176_label_prop.
Print Assumptions C176_tsl.
Print Assumptions C176_stratified_split.
Print Assumptions C176_dasvm.
Print Assumptions C176_mmdls.
Print Assumptions C176_mixval.
Print Assumptions C176_circular.
Print Assumptions C177_kmm_solver_exists.
Print Assumptions C177_mmdtars_solver_exists.
Print Assumptions C177_kmm_scipy.
Print Assumptions C177_kmm_frank_wolfe.
Print Assumptions C177_mmdtars.
Print Assumptions C177_feature_map.
Print Assumptions C177_kmm_scipy_on.
Print Assumptions C177_rbf_frank_wolfe.
Print Assumptions C177_rbf_scipy.
Print Assumptions C177_rbf_mmdtars.
Print Assumptions C178_solver_exists.
Print Assumptions C178_regression.
Print Assumptions C178_classification.
Print Assumptions C178_threshold.
Print Assumptions C179_no_target_labels.
Print Assumptions C179_classification.
Print Assumptions C179_circular.
Print Assumptions C180_reweighting.
Print Assumptions C180_mapping.
Print Assumptions C180_propagation.
Print Assumptions C180_dasvm.
Print Assumptions C181_propagation.
Print Assumptions C181_jdot.
Print Assumptions C182_trained_on_adapted_sources.
Print Assumptions C182_trained_on_propagated_targets.
Print Assumptions C183_one_by_one.
Print Assumptions C183_batches.
Print Assumptions C184_nothing_missing.
Print Assumptions C184_source_target_outside.
Print Assumptions C185_same_moments.
Print Assumptions C185_same_second_moments.
Print Assumptions C185_single_source.
Print Assumptions C186_coral_auto_refuted.
Print Assumptions C186_coral_number.
Print Assumptions C186_coral_reg.
Print Assumptions C186_coral.
Print Assumptions C186_coral_centred.
Print Assumptions C186_monge.
Print Assumptions C186_density.
Print Assumptions C186_discriminator.
Print Assumptions C186_kmm.
Print Assumptions C186_label_propagation.
Print Assumptions C186_label_propagation_regression.
Print Assumptions C186_importance_scorer.
Print Assumptions C187_coral_auto_refuted.
Print Assumptions C187_coral_number.
Print Assumptions C187_coral_sources.
Print Assumptions C187_coral_targets.
Print Assumptions C187_coral_centred.
Print Assumptions C187_monge.
Print Assumptions C188_X.
Print Assumptions C188_X_y.
Print Assumptions C188_X_y_then_X.
Print Assumptions C189_same_features.
Print Assumptions C190_coral.
Print Assumptions C190_coral_maps.
Print Assumptions C190_gaussian.
Print Assumptions C190_monge.
Print Assumptions C190_entropy.
Print Assumptions C190_mano.
Print Assumptions C190_dan.
Print Assumptions C191_defaults_partial.
Print Assumptions C191_kmm_refuted.
Print Assumptions C191_default_estimator.
Print Assumptions C191_starting_point_refuted.
Print Assumptions C192_clusters_are_classes.
Print Assumptions C193_label_propagation.
Print Assumptions C193_label_propagation_regression.
Print Assumptions C193_mapping.
Print Assumptions C194_likelihood_refuted.
Print Assumptions C194_iterations.
Print Assumptions C194_gradient.
Print Assumptions C195_objective.
Print Assumptions C195_regulariser.
Print Assumptions C195_classes.
Print Assumptions C195_gaussian_refuted.
Print Assumptions C195_label_kernel_refuted.
Print Assumptions C195_label_kernel.
Print Assumptions C195_numbers.
Print Assumptions C196_matters.
Print Assumptions C196_test_time_refuted.
Print Assumptions C196_verbose_refuted.
Print Assumptions C196_unseen_domain_refuted.
Print Assumptions C196_center_refuted.
Print Assumptions C196_sigma_ch_refuted.
Print Assumptions C197_waits.
Print Assumptions C197_until_fit.
Print Assumptions C197_coral_refuted.
Print Assumptions C197_kernel_refuted.
Print Assumptions C198_coral_auto_refuted.
Print Assumptions C198_coral.
Print Assumptions C198_coral_centred.
Print Assumptions C198_monge.
Print Assumptions C199_source_target.
Print Assumptions C199_one_domain.
Print Assumptions C199_one_side.
Print Assumptions C200_coral_centred.
Print Assumptions C200_coral.
Print Assumptions C200_monge.
Print Assumptions C200_coral_reg.
Print Assumptions C201_never_too_many.
Print Assumptions C201_all_and_none.
Print Assumptions C201_monotone.
Print Assumptions C201_within_one.
Print Assumptions C201_exact_refuted.
Print Assumptions C201_target_shift.
Print Assumptions C201_cut_off.
Print Assumptions C202_nonnegative.
Print Assumptions C202_constraint.
Print Assumptions C202_million.
Print Assumptions C202_no_rounding.
Print Assumptions C202_weights_in_range.
Print Assumptions C202_weights_sum.
Print Assumptions C202_returns.
Print Assumptions C203_accurate.
Print Assumptions C203_power_of_two.
Print Assumptions C203_last_step_refuted.
Print Assumptions C204_density.
Print Assumptions C204_scorer.
Print Assumptions C204_kde.
Print Assumptions C204_overflow.
Print Assumptions C204_new_sample_refuted.
Print Assumptions C204_signs.
Print Assumptions C205_number.
Print Assumptions C205_nan.
Print Assumptions C205_temperature_refuted.
Print Assumptions C206_contract_met.
Print Assumptions C206_alignment_contracts.
Print Assumptions C206_all_components.
Print Assumptions C206_default_is_all.
Print Assumptions C206_transfer_subspace.
Print Assumptions C207_density.
Print Assumptions C207_gaussian.
Print Assumptions C207_scorer.
Print Assumptions C207_histogram.
Print Assumptions C207_discriminator_refuted.
Print Assumptions C208_zero.
Print Assumptions C208_one.
Print Assumptions C208_auto_full.
Print Assumptions C208_none.
Print Assumptions C209_shuffle_split.
Print Assumptions C209_domain_shuffle.
Print Assumptions C209_lodo.
Print Assumptions C209_stratified_train.
Print Assumptions C209_stratified_test.
Print Assumptions C209_stratified_refuted.
Print Assumptions C210_label_propagation.
Print Assumptions C210_plain_mean.
Print Assumptions C210_class_shares.
Print Assumptions C210_jdot.
Print Assumptions C211_jdot_features_only.
Print Assumptions C211_jdot_is_label_propagation.
Print Assumptions C211_jdot_labels_only.
Print Assumptions C211_jdot_class_labels_only.
Print Assumptions C211_jdot_class_features_only.
Print Assumptions C211_no_under_sampling.
Print Assumptions C212_careful.
Print Assumptions C212_careless_refuted.
Print Assumptions C213_entropy.
Print Assumptions C213_mano.
Print Assumptions C213_mano_small_p_refuted.
Print Assumptions C213_supervised.
Print Assumptions C213_importance.
Print Assumptions C213_circular.
Print Assumptions C213_snd_constant.
Print Assumptions C213_snd_refuted.
Print Assumptions C213_dev_refuted.
Print Assumptions C213_mixval_constant.
Print Assumptions C213_mixval_refuted.
Print Assumptions C214_kmeans_iterations.
Print Assumptions C214_kmeans_restarts.
Print Assumptions C214_kmeans.
Print Assumptions C214_bandwidths.
Print Assumptions C214_kmm.
Print Assumptions C214_frank_wolfe_refuted.
Print Assumptions C214_jdot_regression.
Print Assumptions C214_jdot_classification.
Print Assumptions C215_classes.
Print Assumptions C215_class_minus_one_refuted.
Print Assumptions C215_auto_domain_refuted.
Print Assumptions C215_numbers.
Print Assumptions C215_circular_numbers.
Print Assumptions C215_circular_whole_numbers_refuted.
Print Assumptions C216_label_propagation.
Print Assumptions C216_jdot.
Print Assumptions C216_origin.
Print Assumptions C216_unit_refuted.
Print Assumptions C216_whole_numbers_refuted.
Print Assumptions C217_propagation.
Print Assumptions C217_jdot_refuted.
Print Assumptions C217_deep.
Print Assumptions C217_deep_refuted.
Print Assumptions C218_monge.
Print Assumptions C218_monge_linear.
Print Assumptions C218_coral_uncorrelated.
Print Assumptions C218_coral_longer.
Print Assumptions C219_monge.
Print Assumptions C219_coral.
Print Assumptions C219_coral_alike.
Print Assumptions C219_coral_refuted.
Print Assumptions C220_weights.
Print Assumptions C220_features.
Print Assumptions C220_labels.
Print Assumptions C220_default_bandwidth_refuted.
Print Assumptions C221_merge.
Print Assumptions C221_ot_mapping.
Print Assumptions C221_coral.
Print Assumptions C221_subspace.
Print Assumptions C221_mmdls.
Print Assumptions C221_circular.
Print Assumptions C221_pack.
Print Assumptions C221_pack_masked_refuted.
Print Assumptions C221_monge_refuted.
Print Assumptions C221_mixed_merge_refuted.
Print Assumptions C222_arrays.
Print Assumptions C222_scalar.
Print Assumptions C222_list_refuted.
Print Assumptions C222_large_role_refuted.
Print Assumptions C222_large_merged_refuted.
Print Assumptions C222_merge.
Print Assumptions C223_same_steps.
Print Assumptions C223_same_names.
Print Assumptions C223_predicted_labels_refuted.
Print Assumptions C223_nested_masking_refuted.
Print Assumptions C223_names_refuted.
Print Assumptions C224_propagation.
Print Assumptions C224_jdot.
Print Assumptions C224_deep.
Print Assumptions C224_deep_ones.
Print Assumptions C224_deep_refuted.
Print Assumptions C225_temperature.
Print Assumptions C225_power.
Print Assumptions C225_threshold.
Print Assumptions C225_alpha.
Print Assumptions C225_mano.
Print Assumptions C226_kliep.
Print Assumptions C226_kmm.
Print Assumptions C226_kernel_maps.
Print Assumptions C226_coral.
Print Assumptions C226_monge.
Print Assumptions C226_nearest_refuted.
Print Assumptions C227_left_out.
Print Assumptions C227_default_epoch.
Print Assumptions C227_one_side.
Print Assumptions C227_trains_on_all.
Print Assumptions C227_validation_apart.
Print Assumptions C227_default_split_refuted.
Print Assumptions C227_valid_split_refuted.
Print Assumptions C228_dev_column.
Print Assumptions C228_dev_equal_weights_refuted.
Print Assumptions C228_dev_default_refuted.
Print Assumptions C228_dev_larger_refuted.
Print Assumptions C228_importance.
Print Assumptions C229_read.
Print Assumptions C229_set.
Print Assumptions C229_unknown.
Print Assumptions C229_base_estimator_refuted.
Print Assumptions C230_coral.
Print Assumptions C230_dan.
Print Assumptions C230_jdot.
Print Assumptions C230_cdd.
Print Assumptions C230_cdd_refuted.
Print Assumptions C230_coral_units.
Print Assumptions C230_dan_units.
Print Assumptions C231_label_regression.
Print Assumptions C231_label_class.
Print Assumptions C231_jdot_regression.
Print Assumptions C231_jdot_classification.
Print Assumptions C231_coral.
Print Assumptions C231_gaussian_refuted.
Print Assumptions C231_density.
Print Assumptions C232_label_propagation.
Print Assumptions C232_jdot.
Print Assumptions C232_can_refuted.
Print Assumptions C232_tars.
Print Assumptions C233_dasvm.
Print Assumptions C233_gradual.
Print Assumptions C233_jdot.
Print Assumptions C233_label_propagation.
Print Assumptions C233_jcpot_refuted.
Print Assumptions C234_together.
Print Assumptions C234_one.
Print Assumptions C234_replaced.
Print Assumptions C235_jdot_regression.
Print Assumptions C235_jdot_classification.
Print Assumptions C235_tjm.
Print Assumptions C235_kmeans.
Print Assumptions C235_kliep.
Print Assumptions C236_splits.
Print Assumptions C236_leave_one_out.
Print Assumptions C236_balanced_sampler.
Print Assumptions C236_one_side_sampler.
Print Assumptions C236_balanced_loader.
Print Assumptions C236_one_side_loader.
Print Assumptions C237_merge_associative.
Print Assumptions C237_select_of_merge.
Print Assumptions C237_selections_commute.
Print Assumptions C237_selection_inside.
Print Assumptions C237_selections_disjoint.
Print Assumptions C238_moved_among_targets.
Print Assumptions C239_supervised.
Print Assumptions C239_entropy.
Print Assumptions C239_soft_neighbourhood.
Print Assumptions C239_mixval.
Print Assumptions C239_mano.
Print Assumptions C240_fit.
Print Assumptions C240_masked.
Print Assumptions C240_apply.
Print Assumptions C241_close.
Print Assumptions C241_unique.
Print Assumptions C241_equality.
Print Assumptions C241_two_sided.
Print Assumptions C242_kmeans_iterations.
Print Assumptions C242_kmeans_ends.
Print Assumptions C242_jdot_regression.
Print Assumptions C242_jdot_classification.
Print Assumptions C242_jdot_threshold.
Print Assumptions C243_kmm.
Print Assumptions C243_kmm_frank_wolfe.
Print Assumptions C243_frank_wolfe_refuted.
Print Assumptions C243_subspace_alignment.
Print Assumptions C243_coral.
Print Assumptions C243_coral_refuted.
Print Assumptions C243_coral_shrunk.
Print Assumptions C243_transport.
Print Assumptions C244_coral.
Print Assumptions C244_coral_shrunk.
Print Assumptions C244_coral_any.
Print Assumptions C244_coral_uncorrelated.
Print Assumptions C244_monge.
Print Assumptions C244_coral_alone.
Print Assumptions C245_transport.
Print Assumptions C245_transport_order.
Print Assumptions C245_monge.
Print Assumptions C245_coral_order.
Print Assumptions C245_coral_refuted.
Print Assumptions C246_equal_steps.
Print Assumptions C246_do_not_meet.
Print Assumptions C246_default_refuted.
Print Assumptions C247_quantiles.
Print Assumptions C247_sorted.
Print Assumptions C247_labels.
Print Assumptions C247_numbers.
