{
 "claims": [
  {
   "property": "C01",
   "status": "proved",
   "theorems": [
    "C01_split_exact",
    "C01_split_partition",
    "C01_split_aligned",
    "C01_split_errors"
   ],
   "note": "Arrays are lists of rows; the split equals the rows with label >= 0 / < 0, for every interleaving. A length mismatch is an IndexError (the consistency check in the code is ineffective)."
  },
  {
   "property": "C02",
   "status": "proved",
   "theorems": [
    "C02_split_merge_roundtrip"
   ],
   "note": "Round trip on arrays with dtype and trailing shape, all layouts including one-sided ones."
  },
  {
   "property": "C03",
   "status": "partial",
   "theorems": [
    "C03_merge_places_rows_partial",
    "C03_merge_values_unchanged_partial",
    "C03_merge_values_unchanged_refuted",
    "C03_merge_miscount_rejected",
    "C03_merge_bad_call_rejected"
   ],
   "note": "REFUTED for mixed dtypes: with an integer source and a float target array the target values are truncated. Placement, counts and all rejections are proved; values are unchanged when the source array is float or both contain integers."
  },
  {
   "property": "C04",
   "status": "proved",
   "theorems": [
    "C04_column_masked",
    "C04_columns_refused",
    "C04_missing_target_masked",
    "C04_missing_source_masked"
   ],
   "note": "1-D labels, either side missing."
  },
  {
   "property": "C05",
   "status": "partial",
   "theorems": [
    "C05_check_X_domain_accepts_partial",
    "C05_check_X_domain_only_ValueError",
    "C05_check_X_domain_documented_partial",
    "C05_allow_multi_target_refuted",
    "C05_check_X_y_domain_accepts_partial",
    "C05_check_X_y_domain_length_refuted"
   ],
   "note": "REFUTED for allow_multi_target: the code tests the number of sources, so several targets are accepted and several sources rejected; also check_X_y_domain accepts sample_domain of the wrong length. The exact acceptance condition is proved, and it is the documented one when allow_multi_target=True."
  },
  {
   "property": "C06",
   "status": "proved",
   "theorems": [
    "C06_auto_domain_discrete",
    "C06_auto_domain_continuous",
    "C06_auto_domain_rejects",
    "C06_defaults_without_labels"
   ],
   "note": "All label vectors; discrete and continuous."
  },
  {
   "property": "C07",
   "status": "proved",
   "theorems": [
    "C07_domains_indices_exact",
    "C07_positions_increasing_and_exact",
    "C07_split_source_target",
    "C07_per_domain_split_exact"
   ],
   "note": "All label vectors."
  },
  {
   "property": "C08",
   "status": "proved",
   "theorems": [
    "C08_frank_wolfe_feasible",
    "C08_frank_wolfe_returns",
    "C08_zero_iterations_infeasible"
   ],
   "note": "Real arithmetic. For max_iter = 0 the (infeasible) starting point is returned: C08_zero_iterations_infeasible."
  },
  {
   "property": "C09",
   "status": "proved",
   "theorems": [
    "C09_linear_minimiser"
   ],
   "note": "Stated for every iteration of every run (trace of iterates), real arithmetic."
  },
  {
   "property": "C10",
   "status": "partial",
   "theorems": [
    "C10_equality",
    "C10_two_sided",
    "C10_one_sided",
    "C10_nearly_opposite",
    "C10_rejects",
    "C10_bounds_ignored_refuted",
    "C10_both_constraints_refuted",
    "C10_negative_lower_bound_refuted"
   ],
   "note": "REFUTED in three ways: lb/ub are ignored; A x <= b is ignored when Aeq is given too; a negative lower bound gives negative x. Proved for one equality row, one inequality row and two opposite rows with non-negative bounds; for nearly opposite rows up to the allclose tolerance; rejections proved."
  },
  {
   "property": "C11",
   "status": "proved",
   "theorems": [
    "C11_fit_drops_masked_discrete",
    "C11_fit_drops_masked_continuous",
    "C11_fit_keeps_all_otherwise",
    "C11_python_list_rejected"
   ],
   "note": "Stated on the fit call of the Shared selector; discrete and continuous labels, arbitrary parameter dictionaries. A per-sample parameter passed as a Python list raises TypeError (proved). Infinite labels are dropped only when a NaN is present as well (otherwise label-kind detection rejects the vector)."
  },
  {
   "property": "C12",
   "status": "partial",
   "theorems": [
    "C12_outputs_land_on_their_rows",
    "C12_uncovered_rows_zero",
    "C12_container_outputs_land",
    "C12_mixed_dtype_refuted"
   ],
   "note": "REFUTED for outputs of different dtypes: the merged array takes the dtype of the first output, later values are cast. Placement is proved for every partition into integer or boolean indices, for arrays and for (X, y, params) containers."
  },
  {
   "property": "C13",
   "status": "proved",
   "theorems": [
    "C13_shared_no_target_label_leak",
    "C13_per_domain_no_target_label_leak",
    "C13_masked_call",
    "C13_label_kind_premise_needed"
   ],
   "note": "Two-run theorem for Shared and PerDomain, any wrapped estimator, any container. The premise that both label vectors have the same kind is shown to be needed."
  },
  {
   "property": "C14",
   "status": "partial",
   "theorems": [
    "C14_fit_overwrites_caller_labels_refuted",
    "C14_caller_labels_after_fit_partial",
    "C14_caller_labels_unchanged_partial"
   ],
   "note": "REFUTED: masking writes -1/NaN into the caller's array. Exact content after fit proved; unchanged when masking is off, no sample_domain is given, or no target sample is present."
  },
  {
   "property": "C15",
   "status": "proved",
   "theorems": [
    "C15_per_domain_fit_calls",
    "C15_per_domain_routes_rows",
    "C15_unseen_label_rejected"
   ],
   "note": "Fit calls, routing at prediction time and rejection of unseen labels, for every layout."
  },
  {
   "property": "C16",
   "status": "partial",
   "theorems": [
    "C16_domain_aware_estimators",
    "C16_per_domain_masked_fit_always_fails_refuted"
   ],
   "note": "REFUTED on every input with a target sample: rows are removed before the full sample_domain is used to index them, so fit raises IndexError. Proved: estimators that receive sample_domain, and transformers, are fitted once per domain with the labels of target domains masked."
  },
  {
   "property": "C17",
   "status": "proved",
   "theorems": [
    "C17_select_side_rows",
    "C17_select_side_plain",
    "C17_select_target_refuses_masking"
   ],
   "note": "Both selectors, transformers and plain estimators, arbitrary parameter dictionaries."
  },
  {
   "property": "C18",
   "status": "proved",
   "theorems": [
    "C18_fit_each_side",
    "C18_fit_each_side_plain",
    "C18_fit_needs_both_sides",
    "C18_predict_each_side",
    "C18_in_pipeline"
   ],
   "note": "Fit and prediction; plain estimators with discrete labels in C18_fit_each_side_plain."
  },
  {
   "property": "C19",
   "status": "proved",
   "theorems": [
    "C19_metadata_override"
   ],
   "note": "Any sequence of step outputs."
  },
  {
   "property": "C20",
   "status": "partial",
   "theorems": [
    "C20_step_names",
    "C20_unnamed_steps_distinct",
    "C20_user_name_collision_refuted"
   ],
   "note": "REFUTED for mixed names: a user-given name may equal a generated one. Every unnamed step's name is characterised exactly, for every default_selector; unnamed steps get pairwise distinct names whenever no base name contains a dash (class names never do)."
  },
  {
   "property": "C21",
   "status": "partial",
   "theorems": [
    "C21_empty_call",
    "C21_flat_and_only_last_final",
    "C21_stale_final_flag_refuted",
    "C21_bad_selector_rejected"
   ],
   "note": "REFUTED when a selector that is already final is passed directly as a step (two final steps). Proved for estimators, non-final selectors and nested pipelines in any order and number."
  },
  {
   "property": "C22",
   "status": "partial",
   "theorems": [
    "C22_masking_stops_at_label_predictor_partial",
    "C22_prewrapped_predictor_refuted"
   ],
   "note": "REFUTED when the label-predicting step is already wrapped in a selector. Proved for every list of steps with respect to the plain estimators in it; selectors keep their own setting."
  },
  {
   "property": "C23",
   "status": "proved",
   "theorems": [
    "C23_pack_layout",
    "C23_pack_unknown_name",
    "C23_pack_nothing"
   ],
   "note": "numpy data with 1-D labels; torch tensors not modelled. Domains registered with different numbers of rows and labels are not rejected (example)."
  },
  {
   "property": "C24",
   "status": "partial",
   "theorems": [
    "C24_target_labels_masked_partial",
    "C24_unmasked_labels_unchanged",
    "C24_other_dtypes_unmasked_refuted",
    "C24_pack_train",
    "C24_pack_test"
   ],
   "note": "REFUTED for target labels whose dtype is neither int32/int64 nor float32/float64 (e.g. int8, bool): they are packed unmasked. Proved whenever a user mask is given or the first target domain has one of the four dtypes or no labels."
  },
  {
   "property": "C25",
   "status": "partial",
   "theorems": [
    "C25_domains_retrievable_partial",
    "C25_distinct_history",
    "C25_duplicate_name_refused",
    "C25_generated_name_overwrites_refuted",
    "C25_merge_unlabelled_refuted",
    "C25_constructor",
    "C25_constructor_bad_tuple_refuted"
   ],
   "note": "REFUTED: a generated name can overwrite a user-chosen one ('_2'), losing a domain silently; merge raises on X-only domains; a tuple of wrong length in the constructor repeats the previous domain. Proved for all call sequences in which no explicit name looks generated, and whenever the registered names are distinct."
  },
  {
   "property": "C26",
   "status": "proved",
   "theorems": [
    "C26_pack_then_select",
    "C26_pack_then_per_domain_split"
   ],
   "note": "Also through per_domain_split."
  },
  {
   "property": "C27",
   "status": "proved",
   "theorems": [
    "C27_select_domain_exact",
    "C27_select_domain_known",
    "C27_unknown_name"
   ],
   "note": ""
  },
  {
   "property": "C28",
   "status": "proved",
   "theorems": [
    "C28_shuffle_split_exact",
    "C28_shuffle_split_succeeds"
   ],
   "note": "Permutations drawn by the RNG are arbitrary permutations (inputs). sklearn's size validation is modelled; fractions are exact rationals instead of floats. C28_shuffle_split_succeeds gives the converse (valid sizes on both sides never raise)."
  },
  {
   "property": "C29",
   "status": "proved",
   "theorems": [
    "C29_sizes_exact",
    "C29_test_part_nonempty",
    "C29_impossible_rejected"
   ],
   "note": "Exact rationals instead of floats; None, int and fraction sizes in every combination."
  },
  {
   "property": "C30",
   "status": "proved",
   "theorems": [
    "C30_leave_one_domain_out",
    "C30_number_of_splits",
    "C30_zero_domain_raises"
   ],
   "note": "Number of splits, held-out domain and disjointness for every RNG outcome. A domain labelled 0 cannot be held out: the split raises ValueError (C30_zero_domain_raises)."
  },
  {
   "property": "C31",
   "status": "proved",
   "theorems": [
    "C31_stratified_groups_exact",
    "C31_stratified_succeeds",
    "C31_stratified_rejects"
   ],
   "note": "sklearn's _approximate_mode is an oracle constrained only by its contract (allocation bounded by group size, summing to the requested size)."
  },
  {
   "property": "C32",
   "status": "proved",
   "theorems": [
    "C32_domain_shuffle_split",
    "C32_fraction_range"
   ],
   "note": "RNG choices are arbitrary permutations; floor of exact rationals."
  },
  {
   "property": "C33",
   "status": "proved",
   "theorems": [
    "C33_seeded_rows",
    "C33_subsample_aligned",
    "C33_keep_all_unchanged",
    "C33_plain_indices_distinct",
    "C33_stratified_indices_distinct"
   ],
   "note": "All three subsamplers; the splitter is an arbitrary function in the alignment theorem, and the real one in the distinctness theorems. train_size >= n returns the data unchanged (StratifiedDomainSubsampler fills in missing sample_domain)."
  },
  {
   "property": "C34",
   "status": "proved",
   "theorems": [
    "C34_gaussian",
    "C34_density",
    "C34_discriminator_labels",
    "C34_discriminator",
    "C34_kliep",
    "C34_kmm",
    "C34_fit_transform"
   ],
   "note": "Proved for the five adapters with the exact weight of every source row (density, Gaussian, discriminator, KLIEP, KMM), target weights zero; estimators, kernels, pdfs and exp are universally quantified."
  },
  {
   "property": "C35",
   "status": "partial",
   "theorems": [
    "C35_density_mean_one",
    "C35_underflow_refuted"
   ],
   "note": "REFUTED in floating point: the code's fallback for an all-zero mean gives 1/n (mean 1/n). With the real exponential (no underflow) the weights are non-negative with mean one."
  },
  {
   "property": "C36",
   "status": "partial",
   "theorems": [
    "C36_reversed_order",
    "C36_grows_with_target_likeness_refuted"
   ],
   "note": "REFUTED: the weight is (1-p)/p with p the estimated probability of being a target, so it decreases with target-likeness. Proved: the order is exactly reversed, weights non-negative with mean one."
  },
  {
   "property": "C37",
   "status": "proved",
   "theorems": [
    "C37_kliep_mean_one"
   ],
   "note": "Proved for every kernel, RNG draw, tolerance and max_iter >= 1."
  },
  {
   "property": "C38",
   "status": "partial",
   "theorems": [
    "C38_exact_counts",
    "C38_mirrored_partial",
    "C38_counts_targets_refuted"
   ],
   "note": "REFUTED: X[~source_idx] on integer positions selects the mirrored rows, not the targets. Proved: the exact counts computed, and the documented counts for layouts in which sources and targets mirror each other."
  },
  {
   "property": "C39",
   "status": "partial",
   "theorems": [
    "C39_kmm_mean_bounds",
    "C39_negative_eps",
    "C39_upper_bound_refuted"
   ],
   "note": "REFUTED for the bound B (never passed to the frank-wolfe solver). Proved: non-negativity and the two-sided bound on the mean for every eps <= 1 and the default eps; negative eps rejected."
  },
  {
   "property": "C40",
   "status": "proved",
   "theorems": [
    "C40_ot_transform",
    "C40_ot_fit_transform",
    "C40_sources_rejected"
   ],
   "note": "Proved for every transport that returns one float row per source row; fit is proved to give it exactly the source and target samples and labels. POT itself is an oracle."
  },
  {
   "property": "C41",
   "status": "partial",
   "theorems": [
    "C41_subspace_alignment",
    "C41_transfer_subspace",
    "C41_kernel_new_data",
    "C41_kernel_block_order_partial",
    "C41_interleaved_refuted"
   ],
   "note": "REFUTED for TCA and TJM on interleaved training data: fit_transform returns the images of the sources, then those of the targets. Proved: SubspaceAlignment and TransferSubspaceLearning for every layout, TCA/TJM on any data other than the training data, on sources-first training data, and the exact order otherwise."
  },
  {
   "property": "C42",
   "status": "partial",
   "theorems": [
    "C42_one_iteration",
    "C42_stops_early_refuted",
    "C42_later_stops_partial",
    "C42_negative_tolerance",
    "C42_no_iteration"
   ],
   "note": "REFUTED: the first test divides by the negative initial value -2*tol, so for every tol > 0 exactly one iteration is run. Proved: stops after the first iteration are on a small relative change; tol < 0 uses the whole budget; max_iter = 0 raises UnboundLocalError."
  },
  {
   "property": "C43",
   "status": "partial",
   "theorems": [
    "C43_transform",
    "C43_unseen_domain",
    "C43_fit",
    "C43_integer_input_refuted"
   ],
   "note": "REFUTED for integer X (mapped values are truncated when assigned into a copy of X). Proved for float X, with the KeyError, and what fit stores for each domain."
  },
  {
   "property": "C44",
   "status": "proved",
   "theorems": [
    "C44_target_rows",
    "C44_source_independent"
   ],
   "note": "Proved for every scoring function; the estimator behind it is universally quantified."
  },
  {
   "property": "C45",
   "status": "proved",
   "theorems": [
    "C45_weights"
   ],
   "note": "Proved for every weight estimator and every non-negative exp (so also when it underflows to zero everywhere); the weights are the normalised ratios."
  },
  {
   "property": "C46",
   "status": "partial",
   "theorems": [
    "C46_sum",
    "C46_mean_value",
    "C46_none_value",
    "C46_mean_none_refuted"
   ],
   "note": "REFUTED for 'mean' (divided by the number of classes as well) and 'none' (a matrix, not one value per sample). Proved: bounds for 'sum', and the exact value of the two other reductions."
  },
  {
   "property": "C47",
   "status": "proved",
   "theorems": [
    "C47_mean_of_entropies"
   ],
   "note": "Proved for every probability estimator and temperature: entries of the similarity distribution, row sums, and the entropy bounds. Floating-point log(0) after underflow is not modelled."
  },
  {
   "property": "C48",
   "status": "partial",
   "theorems": [
    "C48_column_loss_partial",
    "C48_default_loss_value",
    "C48_weights",
    "C48_default_loss_refuted",
    "C48_parts"
   ],
   "note": "REFUTED for one-dimensional losses such as the default: weights of shape (n,1) broadcast to an (n,n) product. Proved: the exact value returned, how weights are formed, and that (n,1)-shaped losses give the stated estimate."
  },
  {
   "property": "C49",
   "status": "partial",
   "theorems": [
    "C49_roles_swapped",
    "C49_score",
    "C49_source_labels_unused",
    "C49_source_zero_refuted"
   ],
   "note": "REFUTED when a source domain is labelled 0 (its negation is still a source). Proved: everything the backward estimator is given, the role swap when no label is 0, and independence of the source labels."
  },
  {
   "property": "C50",
   "status": "proved",
   "theorems": [
    "C50_mixval"
   ],
   "note": "Proved for every predictor, scorer, permutation argument and alpha."
  },
  {
   "property": "C51",
   "status": "proved",
   "theorems": [
    "C51_power_mean",
    "C51_probabilities",
    "C51_softmax",
    "C51_taylor",
    "C51_deep"
   ],
   "note": "Proved for p > 0 (other p raise); the Taylor normalisation under the condition that its row values are not all equal, the softmax always."
  },
  {
   "property": "C52",
   "status": "proved",
   "theorems": [
    "C52_discrete_labels",
    "C52_regression_labels",
    "C52_ignores_target_labels",
    "C52_by_values"
   ],
   "note": "Proved for classification (ties go to the smallest class) and regression (masked rows are NaN, targets get the barycentre); the plan is an oracle. Labels are integers, resp. reals; check_X_y_domain and the choice of the branch (C06) are modelled elsewhere."
  },
  {
   "property": "C53",
   "status": "partial",
   "theorems": [
    "C53_jcpot_labels_partial",
    "C53_jcpot_columns",
    "C53_target_order_refuted",
    "C53_label_values_refuted"
   ],
   "note": "REFUTED twice: scores are computed domain by domain in increasing label order but written in sample order (target domains -1, -2 in this order exchange labels), and column numbers are returned instead of class labels. Proved when targets are sorted by domain label and classes are 0..K-1, and what is computed in general. JCPOT's plan is an oracle giving one score row per target sample."
  },
  {
   "property": "C54",
   "status": "proved",
   "theorems": [
    "C54_label_loss",
    "C54_regression_run",
    "C54_regression_succeeds",
    "C54_no_iteration",
    "C54_classification_run"
   ],
   "note": "Proved for both solvers with every OT solver, estimator and metric, including the exact costs, fitting labels and losses of each iteration; n_iter_max = 0 raises UnboundLocalError."
  },
  {
   "property": "C55",
   "status": "proved",
   "theorems": [
    "C55_fitting_data",
    "C55_triples",
    "C55_empty_raises"
   ],
   "note": "Proved for every rectangular label plan; an empty one raises ValueError."
  },
  {
   "property": "C56",
   "status": "partial",
   "theorems": [
    "C56_selection_step",
    "C56_progress",
    "C56_at_most_one_per_class",
    "C56_k_per_class_refuted",
    "C56_first_selection",
    "C56_iteration"
   ],
   "note": "REFUTED for k > 1 points per class: the mask of candidates is not updated between the k repetitions, so every repetition selects the same points and at most one point per class is added. The rest is proved for every mask, score matrix and condition. Decision values and base estimator are oracles; two classes, as in the code."
  },
  {
   "property": "C57",
   "status": "partial",
   "theorems": [
    "C57_predict_and_decision",
    "C57_proba_is_source_model",
    "C57_proba_refuted"
   ],
   "note": "REFUTED: predict_proba uses base_estimator, which fit trained on the source samples only, while predict and decision_function use the final model base_estimator_ (witness with different probabilities; proved in general)."
  },
  {
   "property": "C58",
   "status": "proved",
   "theorems": [
    "C58_interpolated"
   ],
   "note": "Proved for every plan, number of steps and mode; the plan and the base estimator are oracles, reals instead of floats."
  },
  {
   "property": "C59",
   "status": "partial",
   "theorems": [
    "C59_number_of_samples",
    "C59_advanced",
    "C59_completes_partial",
    "C59_ties_refuted"
   ],
   "note": "REFUTED for ties: every pair at the threshold is kept, so a constant plan between ns and nt samples with ns + nt + 1 < ns nt makes fit raise IndexError with the default alpha. Proved: the number and choice of the pairs whenever fit succeeds, success for plans with pairwise different coefficients (alpha >= 0), and advanced mode without restriction."
  },
  {
   "property": "C60",
   "status": "proved",
   "theorems": [
    "C60_epoch",
    "C60_batches",
    "C60_small_sides_give_no_batch",
    "C60_one_side"
   ],
   "note": "Proved for every dataset, batch size, mode and every sequence of permutations drawn by the generator. When both sides are smaller than the batch size the loader yields no batch at all. Sampler plus the batching of the torch DataLoader with drop_last irrelevant (lengths are multiples); multiprocessing is not modelled."
  },
  {
   "property": "C61",
   "status": "proved",
   "theorems": [
    "C61_batches",
    "C61_unknown_side"
   ],
   "note": "Proved for every dataset, batch size and permutation."
  },
  {
   "property": "C62",
   "status": "proved",
   "theorems": [
    "C62_constructor",
    "C62_constructor_accepts",
    "C62_select_source",
    "C62_select_target",
    "C62_select_domain",
    "C62_select_with_labels",
    "C62_select_condition",
    "C62_numbers_kept",
    "C62_partition",
    "C62_per_domain_split",
    "C62_merge",
    "C62_merge_mixed_weights",
    "C62_items",
    "C62_weights",
    "C62_copy",
    "C62_dict"
   ],
   "note": "Proved. Also proved: merging with keep_weights when only one side has weights is an assertion error. Tensors are lists of rows, dict inputs are modelled for the constructor only."
  },
  {
   "property": "C63",
   "status": "proved",
   "theorems": [
    "C63_source_labels_only",
    "C63_target_labels_unused"
   ],
   "note": "Proved for every base and adaptation criterion (oracles), with the exact value of the loss."
  },
  {
   "property": "C64",
   "status": "partial",
   "theorems": [
    "C64_aligned",
    "C64_zero_labels_raise_refuted",
    "C64_reduced_loss_raises",
    "C64_wrong_weights_refuted",
    "C64_no_weights",
    "C64_single_source"
   ],
   "note": "REFUTED: weights are restricted to sample_domain > 0 while losses are restricted to sample_domain >= 0. With source domain 0 (the default) and at least two source samples training raises; with domains 0 and 1 a wrong weight is used silently (witness). Proved: aligned when no domain is labelled 0; a reduced base loss is refused."
  },
  {
   "property": "C65",
   "status": "partial",
   "theorems": [
    "C65_moving_average_refuted",
    "C65_decay",
    "C65_runs",
    "C65_ignores_features",
    "C65_start"
   ],
   "note": "REFUTED: the update multiplies the stored rows by 1 - momentum and never adds the new features; proved for every history: entry i is its initial random value times (1-momentum)^(number of batches with i), and the content does not depend on any feature."
  },
  {
   "property": "C66",
   "status": "partial",
   "theorems": [
    "C66_constant_refuted",
    "C66_dann_constant",
    "C66_two_outputs"
   ],
   "note": "REFUTED: a softmax over the single default output is 1 for all parameters and inputs; the default adversarial loss is therefore the constant 100 (BCE clamps its logarithm at -100). With two outputs the classifier does separate."
  },
  {
   "property": "C67",
   "status": "proved",
   "theorems": [
    "C67_mcc_bounded",
    "C67_mcc_value"
   ],
   "note": "Proved over the reals (in floating point a class whose probabilities all underflow to 0 gives nan). The value of the loss (weighted confusion) is proved too, for two or more classes."
  },
  {
   "property": "C68",
   "status": "proved",
   "theorems": [
    "C68_best_run",
    "C68_run",
    "C68_tolerance",
    "C68_iterations",
    "C68_degenerate",
    "C68_best_initialisation"
   ],
   "note": "Proved for any list of initial centroids (the random choices are inputs), together with what one run does and when it fails (max_iter = 0, no run)."
  },
  {
   "property": "C69",
   "status": "partial",
   "theorems": [
    "C69_first_fit",
    "C69_ranges",
    "C69_restart_refuted"
   ],
   "note": "REFUTED for the re-fit: CountEpochs resets its own counter, not the counter of the criterion which it increments, so a second fit continues the schedule and the pseudo-label weight reaches 2. The first fit is proved."
  },
  {
   "property": "C70",
   "status": "proved",
   "theorems": [
    "C70_shapes",
    "C70_cost",
    "C70_default_criterion",
    "C70_unequal_sizes"
   ],
   "note": "Proved for every criterion (oracle) and every emd2 (oracle, whose arguments are exhibited), with the default criterion identified as the cross entropy."
  },
  {
   "property": "C71",
   "status": "partial",
   "theorems": [
    "C71_all_pairs",
    "C71_own_label_refuted",
    "C71_agreeing_labels",
    "C71_mdd_loss"
   ],
   "note": "REFUTED: indexing [..., target] pairs every sample with every pseudo-label, so the loss averages over all pairs (proved for every batch); witness with two samples where it differs. Proved: right when all pseudo-labels of the batch agree. The MDD loss around it is proved too."
  },
  {
   "property": "C72",
   "status": "proved",
   "theorems": [
    "C72_sizes",
    "C72_succeeds",
    "C72_target_shift"
   ],
   "note": "Proved for every generator that returns arrays of the requested shapes (rand, randn, choice, normal are oracles with this contract), every shift, label mode, noise and standardisation: sizes, alignment, domain labels; the call succeeds for the documented arguments; the number of class-0 target samples under target_shift (binary and multiclass) is floor(8 n ratio)."
  },
  {
   "property": "C73",
   "status": "partial",
   "theorems": [
    "C73_any_selectors_partial",
    "C73_chain_no_target_label_leak_partial",
    "C73_select_target_then_masked_refuted"
   ],
   "note": "REFUTED: after a SelectTarget transformer, a later step with mask_target_labels=True is fitted on the true target labels, because labels stored in the container override the masked ones. Proved for pipelines of arbitrary selectors in which a masking Shared or PerDomain step comes first, or comes after SelectSource steps that return arrays."
  },
  {
   "property": "C74",
   "status": "partial",
   "theorems": [
    "C74_clone_default_masking_partial",
    "C74_source_target_clone_fails_refuted",
    "C74_clone_reenables_masking_refuted",
    "C74_clone_loses_final_refuted"
   ],
   "note": "REFUTED: mask_target_labels=False is lost by clone (C74_clone_reenables_masking_refuted), the final flag too (C74_clone_loses_final_refuted), and a SelectSourceTarget cannot be cloned at all (C74_source_target_clone_fails_refuted, AttributeError in get_params). Proved: selectors of the other classes with the default masking keep class, estimator and masking."
  },
  {
   "property": "C75",
   "status": "partial",
   "theorems": [
    "C75_nesting_changes_inner_refuted",
    "C75_nesting_frame_partial"
   ],
   "note": "REFUTED: the inner pipeline's last step is unmarked in place. Proved: nothing but the final flag of the given selectors changes, other selectors not at all."
  },
  {
   "property": "C76",
   "status": "partial",
   "theorems": [
    "C76_bunch_names_partial",
    "C76_both_ways_refuted"
   ],
   "note": "REFUTED when a name is used both as source and as target (as pack_lodo does): the table keeps only the target label. Proved for disjoint selections."
  },
  {
   "property": "C77",
   "status": "partial",
   "theorems": [
    "C77_pack_lodo",
    "C77_default_ignores_return_type_refuted"
   ],
   "note": "REFUTED for the return type: the default return_X_y=True overrides it. Contents proved for every dataset whose first domain has int/float labels."
  },
  {
   "property": "C78",
   "status": "partial",
   "theorems": [
    "C78_converges",
    "C78_gap_vanishes",
    "C78_single_row_refuted"
   ],
   "note": "REFUTED for a single inequality row (the solver minimises over A x = b). The O(1/k) rate and vanishing gap are proved for two-sided and equality constraints, any starting point (also infeasible), real arithmetic."
  },
  {
   "property": "C79",
   "status": "proved",
   "theorems": [
    "C79_scipy_problem",
    "C79_start"
   ],
   "note": "scipy's minimiser itself is external. A matrix without its right-hand side is outside the model."
  },
  {
   "property": "C80",
   "status": "partial",
   "theorems": [
    "C80_single_bandwidth",
    "C80_selects_best_bandwidth",
    "C80_refit_single_partial",
    "C80_refit_numbers_partial",
    "C80_refit_equals_fresh_fit_refuted"
   ],
   "note": "REFUTED for lists containing 'scale'/'auto' (fit overwrites the gamma argument by numbers). Proved for single bandwidths and lists of numbers; the selected bandwidth maximises the likelihood."
  },
  {
   "property": "C81",
   "status": "proved",
   "theorems": [
    "C81_tars_fit",
    "C81_tars_weights"
   ],
   "note": "Proved; the constraint bounds are conditional on the solver returning a point that meets the problem it was given."
  },
  {
   "property": "C82",
   "status": "partial",
   "theorems": [
    "C82_softmax_unaffected_partial",
    "C82_taylor_refuted"
   ],
   "note": "REFUTED: _get_criterion calls _stable_softmax, which subtracts the row maximum from the logits in place, so the Taylor normalisation sees shifted logits. Proved: the softmax branch is unaffected."
  },
  {
   "property": "C83",
   "status": "partial",
   "theorems": [
    "C83_defined",
    "C83_three_distinct",
    "C83_undefined",
    "C83_taylor_zero_refuted"
   ],
   "note": "REFUTED: logits (2, 0) become (0, -2), whose second-order Taylor values are equal. Proved: the normalisation gives probability vectors iff some logit differs from the largest by something other than 0 and 2, so with three or more distinct logits per row always."
  },
  {
   "property": "C84",
   "status": "partial",
   "theorems": [
    "C84_sources_first_partial",
    "C84_interleaved_refuted"
   ],
   "note": "REFUTED for interleaved layouts: the mask is in sample order, the projection rows are in the order sources, targets. Proved for sources-first layouts."
  },
  {
   "property": "C85",
   "status": "proved",
   "theorems": [
    "C85_mmd_matrix",
    "C85_centring_matrix"
   ],
   "note": "Proved over the reals for all sizes."
  },
  {
   "property": "C86",
   "status": "proved",
   "theorems": [
    "C86_row_order",
    "C86_assume_centered",
    "C86_covariance_match",
    "C86_moment_match",
    "C86_square_roots",
    "C86_eigensolver_exists"
   ],
   "note": "Proved over the reals for every correct symmetric eigensolver (np.linalg.eigh is an oracle); C86_eigensolver_exists proves that one exists for every number of features, so the assumption can be met. Shrinkage is the subject of C155 and C208."
  },
  {
   "property": "C87",
   "status": "proved",
   "theorems": [
    "C87_training_sources",
    "C87_known_classes",
    "C87_nearest",
    "C87_unseen_class",
    "C87_fit"
   ],
   "note": "Proved for the three branches; a label unseen in fit silently gets zero coefficients (C87_unseen_class). The optimiser is an oracle."
  },
  {
   "property": "C88",
   "status": "partial",
   "theorems": [
    "C88_label_cost",
    "C88_better_class_is_cheaper",
    "C88_more_probable_is_cheaper",
    "C88_binary_hinge_refuted"
   ],
   "note": "REFUTED for the hinge metric with a one-dimensional decision (every binary classifier): the decision is duplicated, so both classes have the same cost for every score. Proved for log-probabilities, probabilities and decisions with one column per class."
  },
  {
   "property": "C89",
   "status": "proved",
   "theorems": [
    "C89_moved_labels_in_range",
    "C89_label_propagation_in_range",
    "C89_jdot_fits_in_range"
   ],
   "note": "Proved over the reals."
  },
  {
   "property": "C90",
   "status": "proved",
   "theorems": [
    "C90_jdot_inputs",
    "C90_ignores_target_labels"
   ],
   "note": "Proved for any solver."
  },
  {
   "property": "C91",
   "status": "proved",
   "theorems": [
    "C91_label_propagation_marginals",
    "C91_jdot_regression_marginals",
    "C91_jdot_classification_marginals"
   ],
   "note": "Proved: two solvers agreeing on such vectors give the same results."
  },
  {
   "property": "C92",
   "status": "proved",
   "theorems": [
    "C92_class_weights",
    "C92_weights_of_a_target",
    "C92_threshold"
   ],
   "note": "Proved over the reals."
  },
  {
   "property": "C93",
   "status": "partial",
   "theorems": [
    "C93_only_through_the_plan",
    "C93_target_labels_used_refuted"
   ],
   "note": "REFUTED at the interface: y[target] is passed to the transport method as yt, which may use it (a witness plan does; POT methods use labels other than -1). Proved: this is the only way target labels can matter."
  },
  {
   "property": "C94",
   "status": "partial",
   "theorems": [
    "C94_max_iter_grows",
    "C94_refit_refuted"
   ],
   "note": "REFUTED: max_iter of the base estimator is raised by 100 per step and never reset, so a second fit starts from the raised value and gives another classifier; a base_estimator of None is replaced by the default one. Proved: the exact value after fit."
  },
  {
   "property": "C95",
   "status": "partial",
   "theorems": [
    "C95_exact",
    "C95_completes_partial",
    "C95_all_added_raises",
    "C95_fit_raises_refuted"
   ],
   "note": "REFUTED: once all targets have been added and keep their labels the decision array is one-dimensional and np.sum(.., axis=1) raises AxisError (witness with two source and two target samples). Proved: fit raises iff this situation is reached within max_iter iterations and succeeds otherwise; it cannot be reached when 2 (max_iter - 1) is smaller than the number of targets."
  },
  {
   "property": "C96",
   "status": "proved",
   "theorems": [
    "C96_training_sets",
    "C96_target_labels_unused"
   ],
   "note": "Proved for all iterations, with oracles for the base estimator."
  },
  {
   "property": "C97",
   "status": "proved",
   "theorems": [
    "C97_self_training"
   ],
   "note": "Proved for every successful fit with a plan of the right shape."
  },
  {
   "property": "C98",
   "status": "partial",
   "theorems": [
    "C98_loop_misses_added_refuted",
    "C98_new_dataset",
    "C98_in_place"
   ],
   "note": "REFUTED for merge(out=False): the sample numbers are not recomputed, so indexing past the old length raises IndexError and a loop silently stops there; the arrays are right and the old samples are unchanged. Proved for merge(out=True)."
  },
  {
   "property": "C99",
   "status": "partial",
   "theorems": [
    "C99_defaults",
    "C99_int_domain_refuted"
   ],
   "note": "REFUTED for the documented integer sample_domain, which raises TypeError because len() is applied to it first (proved for all inputs); other defaults proved."
  },
  {
   "property": "C100",
   "status": "proved",
   "theorems": [
    "C100_target_rows",
    "C100_all_rows",
    "C100_arrays"
   ],
   "note": "Proved for modules that act on each sample separately (the module is an oracle), reals instead of floats. Feature and allow_source variants other than these two are not modelled."
  },
  {
   "property": "C101",
   "status": "partial",
   "theorems": [
    "C101_accuracy",
    "C101_weighted",
    "C101_mixed_raises_refuted"
   ],
   "note": "REFUTED for data with both kinds of samples and allow_source=False: predictions for targets are compared with labels of all samples, which raises ValueError. Proved: equal to the accuracy with allow_source, or with target samples only."
  },
  {
   "property": "C102",
   "status": "partial",
   "theorems": [
    "C102_no_domain_raises_refuted",
    "C102_allow_source"
   ],
   "note": "REFUTED: all samples get domain 0, a source domain, are dropped, and the concatenation of zero batches raises ValueError (proved for all inputs). Proved: with allow_source=True every sample is predicted."
  },
  {
   "property": "C103",
   "status": "partial",
   "theorems": [
    "C103_value",
    "C103_zero_iff",
    "C103_shift",
    "C103_assume_centered_refuted"
   ],
   "note": "REFUTED for assume_centered, which has no effect because torch.cov centres anyway (value proved for both settings, witness). The rest is proved."
  },
  {
   "property": "C104",
   "status": "partial",
   "theorems": [
    "C104_value",
    "C104_default_bandwidths",
    "C104_nonneg",
    "C104_same_batch",
    "C104_bounded",
    "C104_symmetric",
    "C104_gaussian_refuted"
   ],
   "note": "REFUTED for 'Gaussian': the kernel has the distance, not its square, in the exponent; no bandwidth makes it Gaussian. Everything else is proved for the kernel used, including non-negativity, through a proof that exp(-|x-y|/sigma) is positive definite in every dimension (PDKernel.v)."
  },
  {
   "property": "C105",
   "status": "partial",
   "theorems": [
    "C105_needs_kmeans",
    "C105_value_refuted",
    "C105_filter_refuted",
    "C105_value",
    "C105_kept",
    "C105_no_valid_class",
    "C105_single_class_error"
   ],
   "note": "REFUTED: (a) the kernel sums within a class pair class samples with all samples and the cross term is divided by the square of the number of pairs (witness); (b) the cosine similarity is reduced over the centroids instead of the features, so far samples are used (witness). Proved: the exact value the code computes (C105_value, an explicit formula over pairs of samples) and which target samples are kept; no valid class gives 0; a batch with a single class and one cluster divides by zero."
  },
  {
   "property": "C106",
   "status": "partial",
   "theorems": [
    "C106_single_target",
    "C106_shared_slot_refuted"
   ],
   "note": "REFUTED with two target domains: numbers restart in each domain, so samples of different domains share a slot. Proved for a single target domain."
  },
  {
   "property": "C107",
   "status": "partial",
   "theorems": [
    "C107_descent",
    "C107_steps",
    "C107_inertia_converged",
    "C107_predict_scale",
    "C107_inertia_refuted",
    "C107_nearest",
    "C107_inertia_value",
    "C107_never_worse"
   ],
   "note": "REFUTED for inertia_ of a run stopped by max_iter (the labels are older than the centres; witness). Proved: both half-steps and the whole run do not increase the objective, for unit samples whose cluster sums are zero or of norm at least 1e-8 (the clamp of cosine_similarity); inertia_ is right for a converged run; predict is scale-free above 1e-8."
  },
  {
   "property": "C108",
   "status": "partial",
   "theorems": [
    "C108_centroids",
    "C108_other_labels_refuted"
   ],
   "note": "REFUTED for labels other than 0..n-1 (classes dropped, or an exception). Proved for labels 0..n-1."
  },
  {
   "property": "C109",
   "status": "partial",
   "theorems": [
    "C109_multilinear",
    "C109_width",
    "C109_same_projection",
    "C109_global_generator_refuted",
    "C109_no_seed_refuted",
    "C109_random_map"
   ],
   "note": "REFUTED: (a) the global generator is reseeded by every training batch when max_features is exceeded and an integer seed is given: its state afterwards is independent of its state before (proved for all states); (b) without a seed every batch gets another projection (witness). Multilinear map, widths and the fixed projection for a given seed are proved; the generator is an oracle."
  },
  {
   "property": "C110",
   "status": "proved",
   "theorems": [
    "C110_neighbours",
    "C110_pseudo_label",
    "C110_too_few",
    "C110_loss"
   ],
   "note": "Proved for every selection topk may return, when K entries outside the batch exist; with fewer an entry of the batch is used (proved too). The value of the loss is proved; over the reals."
  },
  {
   "property": "C111",
   "status": "partial",
   "theorems": [
    "C111_clusters",
    "C111_subspace_binary",
    "C111_subspace_mislabelled_refuted",
    "C111_subspace_split_refuted"
   ],
   "note": "REFUTED for shift='subspace' with label='multiclass': with odd n two samples of the second class carry label 0 (C111_subspace_mislabelled_refuted), with even n the four labels cut each of the two clusters in half (C111_subspace_split_refuted). Proved for the other shifts (C111_clusters: five clusters, five labels, with the affine maps) and for binary subspace labels."
  },
  {
   "property": "C112",
   "status": "proved",
   "theorems": [
    "C112_covariate",
    "C112_target",
    "C112_conditional",
    "C112_subspace",
    "C112_labels_kept",
    "C112_standardized"
   ],
   "note": "Proved; the random draws are oracles, so 'proportional' is about the weights handed to rng.choice. Floating point rounding is not modelled; sigma=0 features are left at 0 by the standardisation of the code and excluded by hypothesis."
  },
  {
   "property": "C113",
   "status": "partial",
   "theorems": [
    "C113_subspace_refuted",
    "C113_labels"
   ],
   "note": "REFUTED for shift='subspace': no mean/sigma of either dimension is accepted, because both a 2-d and a 1-d density are evaluated with the same parameters (C113_subspace_refuted, ValueError). Proved for the other shifts (C113_labels); the density is an oracle."
  },
  {
   "property": "C114",
   "status": "proved",
   "theorems": [
    "C114_translation",
    "C114_accepts",
    "C114_labels"
   ],
   "note": "Proved; make_blobs is the input, normal an oracle."
  },
  {
   "property": "C115",
   "status": "partial",
   "theorems": [
    "C115_centres",
    "C115_end_refuted",
    "C115_layout",
    "C115_names"
   ],
   "note": "REFUTED at position 1: IndexError (C115_end_refuted). Proved for positions in [0,1): centres within pi/99 of the angle pi*pos on the two half circles, labels, sizes, domain numbers and names for all lists of positions (C115_centres, C115_layout)."
  },
  {
   "property": "C116",
   "status": "partial",
   "theorems": [
    "C116_labels",
    "C116_too_many",
    "C116_dataset",
    "C116_frequencies",
    "C116_weights_refuted"
   ],
   "note": "REFUTED: the weights multiply time step j of all channels instead of channel j (C116_weights_refuted, for every linear inverse pair rfft/irfft). Proved: labels, sizes, ValueError above 15 frequencies. Filters and FFT are oracles."
  },
  {
   "property": "C117",
   "status": "partial",
   "theorems": [
    "C117_exposed",
    "C117_source_target_partial",
    "C117_source_target_predict_refuted"
   ],
   "note": "REFUTED for SelectSourceTarget: predict is inherited with the check on base_estimator, an attribute it does not have, so it is never available (C117_source_target_predict_refuted); its other methods and all methods of the other selectors are proved. available_if is sklearn's (external): an exception in the check means 'no attribute'."
  },
  {
   "property": "C118",
   "status": "partial",
   "theorems": [
    "C118_transformer_first_partial",
    "C118_same_kind",
    "C118_predictor_first_refuted"
   ],
   "note": "REFUTED: only (transformer, predictor) is rejected; (predictor, transformer) is accepted (C118_predictor_first_refuted)."
  },
  {
   "property": "C119",
   "status": "partial",
   "theorems": [
    "C119_per_domain_score_refuted",
    "C119_source_target_score_refuted",
    "C119_per_domain_arrays",
    "C119_source_target_arrays",
    "C119_transform_without_labels",
    "C119_shared_score_partial"
   ],
   "note": "REFUTED: score through PerDomain and SelectSourceTarget never returns, since merging asserts ndarray outputs (C119_per_domain_score_refuted, C119_source_target_score_refuted, for every input and all numeric scores). Proved for Shared: the call on the wrapped estimator has exactly the labelled samples."
  },
  {
   "property": "C120",
   "status": "partial",
   "theorems": [
    "C120_construct",
    "C120_set_then_get",
    "C120_replace_base",
    "C120_mask_not_a_parameter_refuted",
    "C120_source_target_refuted",
    "C120_clone"
   ],
   "note": "REFUTED: mask_target_labels can neither be read nor set (C120_mask_not_a_parameter_refuted), and no parameter of SelectSourceTarget can (C120_source_target_refuted: AttributeError, also for clone). Proved for the other selectors: set-then-get, replacing the estimator, clone. Nested names (a__b): C229."
  },
  {
   "property": "C121",
   "status": "partial",
   "theorems": [
    "C121_shared_fit_then_transform",
    "C121_labels_after",
    "C121_per_domain_refuted",
    "C121_source_target_refuted"
   ],
   "note": "REFUTED for PerDomain (TypeError: _fit called without method_name, C121_per_domain_refuted) and SelectSourceTarget (AttributeError: routing_ is never set, C121_source_target_refuted), for every input. Proved for Shared under idempotent routing (no aliases)."
  },
  {
   "property": "C122",
   "status": "partial",
   "theorems": [
    "C122_predictor_receives",
    "C122_unset_adapter_output_reported",
    "C122_unset_user_parameter_reported",
    "C122_adapter_output_dropped_refuted",
    "C122_source_target_report_refuted"
   ],
   "note": "REFUTED: when the final estimator has no such argument at all the adapter's output is dropped without an error (C122_adapter_output_dropped_refuted), and under SelectSourceTarget the report itself fails with AttributeError (C122_source_target_report_refuted). Proved: what a predictor receives, and both reports for the other selectors."
  },
  {
   "property": "C123",
   "status": "partial",
   "theorems": [
    "C123_inner_transformer_partial",
    "C123_alias_refuted"
   ],
   "note": "REFUTED for aliases: the value arrives under the alias name (C123_alias_refuted). Proved without aliases and None values."
  },
  {
   "property": "C124",
   "status": "partial",
   "theorems": [
    "C124_side_keeps_scalars",
    "C124_per_domain_refuted"
   ],
   "note": "REFUTED for PerDomain: every non-array value is indexed, TypeError (C124_per_domain_refuted: fit and prediction never return). Proved for SelectSourceTarget."
  },
  {
   "property": "C125",
   "status": "partial",
   "theorems": [
    "C125_alignment_is_closest",
    "C125_default_components",
    "C125_own_domain",
    "C125_default_refuted"
   ],
   "note": "REFUTED in part: without n_components the number of components is min(n, n_features) over both domains together, so fitting raises ValueError as soon as one domain has fewer samples than features (witness 5+5 samples, 8 features); proved: exactly when the default works, and optimality of the alignment matrix given orthonormal PCA components."
  },
  {
   "property": "C126",
   "status": "partial",
   "theorems": [
    "C126_contracts_met",
    "C126_no_shift_case",
    "C126_kernel_matrix",
    "C126_not_optimal_refuted"
   ],
   "note": "REFUTED: eigh reads only the lower triangle of the non-symmetric solution of the linear system, so the returned direction is not optimal (witness with 3 samples, linear kernel, mu = 1, for every correct solver). Proved: with mu = 0 or no mean gap the components are kernel PCA's, each optimal among the directions orthogonal to the previous ones. solve/eigh/argsort by contract. C126_contracts_met shows the contracts can be met."
  },
  {
   "property": "C127",
   "status": "partial",
   "theorems": [
    "C127_pca",
    "C127_flda_loss_is_separation_refuted",
    "C127_flda_refuted",
    "C127_lpp_loss_is_minus_spread_refuted",
    "C127_lpp_refuted"
   ],
   "note": "REFUTED for flda (the loss is the between-class share of the scatter, minimised) and lpp (the loss is minus the neighbour spread); proved for pca."
  },
  {
   "property": "C128",
   "status": "partial",
   "theorems": [
    "C128_contracts_met",
    "C128_symmetric_and_zero",
    "C128_negative_refuted"
   ],
   "note": "REFUTED in part: the three kernels have different bandwidths and no normalisation, so the value can be negative (witness: eight samples at 0 and one at 1 against eight at 0 and one at 7). Proved: symmetric in the domains and zero on identical domains. inv and cholesky by contract. C128_contracts_met shows the contracts can be met."
  },
  {
   "property": "C129",
   "status": "proved",
   "theorems": [
    "C129_contract_met",
    "C129_constructor",
    "C129_orthonormal",
    "C129_objective"
   ],
   "note": "The optimiser (LBFGS) is arbitrary up to returning as many tensors as it got; QR by contract. C129_contract_met shows the contract can be met."
  },
  {
   "property": "C130",
   "status": "proved",
   "theorems": [
    "C130_torch_minimize"
   ],
   "note": "LBFGS is an arbitrary function; the gradient compared with the tolerance is the one left by the optimiser's last evaluation."
  },
  {
   "property": "C131",
   "status": "partial",
   "theorems": [
    "C131_plain",
    "C131_unknown_refused",
    "C131_nearest_ignores",
    "C131_nearest_refuted",
    "C131_nearest_clone",
    "C131_checks_refuted",
    "C131_kernel_check_refuted"
   ],
   "note": "REFUTED: NearestNeighborReweightAdapter builds its classifier in the constructor, set_params is ignored by fit (C131_nearest_ignores, witness C131_nearest_refuted); TransferSubspaceLearning and KMM check their arguments only in the constructor. Proved for the fifteen adapters that only store their arguments; a clone of the nearest-neighbour adapter uses the settings."
  },
  {
   "property": "C132",
   "status": "partial",
   "theorems": [
    "C132_plain",
    "C132_jdot_refuted",
    "C132_jdot_loses",
    "C132_none_refuted",
    "C132_fresh_clone"
   ],
   "note": "REFUTED: the extra keyword arguments of the JDOT estimators are lost by clone; a parameter set to None afterwards (density estimator, reg) makes clone raise RuntimeError. Proved for the storing adapters after any set_params and for freshly constructed instances of the checking ones. Nested estimators are identified with their clones."
  },
  {
   "property": "C133",
   "status": "partial",
   "theorems": [
    "C133_unknown_refused",
    "C133_missing_refused",
    "C133_dasvm_refuted",
    "C133_dasvm_drops"
   ],
   "note": "REFUTED for DASVMClassifier, which accepts and drops any extra argument (C133_dasvm_drops: always). Proved for the adapters; missing required arguments raise TypeError for every class."
  },
  {
   "property": "C134",
   "status": "partial",
   "theorems": [
    "C134_ensemble_refuted",
    "C134_plain_estimator",
    "C134_length",
    "C134_default",
    "C134_identity_test",
    "C134_explicit_default",
    "C134_defaults_usable",
    "C134_left_out"
   ],
   "note": "REFUTED: `x or default` takes the truth value of the estimator, which for an unfitted ensemble raises AttributeError. Proved for estimators without __len__, for None, and for JDOT and DASVM, which compare with None."
  },
  {
   "property": "C135",
   "status": "partial",
   "theorems": [
    "C135_per_call",
    "C135_fresh",
    "C135_class_reg_refuted",
    "C135_class_reg_shared"
   ],
   "note": "REFUTED for ClassRegularizerOTMapping (default argument created at import and shared: C135_class_reg_shared). Proved for the shorthands that create the default in the call."
  },
  {
   "property": "C136",
   "status": "proved",
   "theorems": [
    "C136_features",
    "C136_returned",
    "C136_unknown_layer"
   ],
   "note": "Heap model of modules, hooks and cached activations; the user's network is an oracle producing a trace of named layer outputs. Proved for every history of constructions, copies, calls and training steps."
  },
  {
   "property": "C137",
   "status": "partial",
   "theorems": [
    "C137_independent",
    "C137_fitted",
    "C137_clone_unfitted",
    "C137_untrained",
    "C137_trained_refuted",
    "C137_refit_refuted",
    "C137_clone_weights_refuted",
    "C137_cdan_refuted"
   ],
   "note": "REFUTED: after a fit the cached activations are non-leaf tensors, deepcopy raises and the net cannot be cloned (C137_trained_refuted: always); the second fit and the clone start from the trained weights of the module (C137_refit_refuted, C137_clone_weights_refuted); a CDAN clone loses max_features and the seed (C137_cdan_refuted). Proved: before training a copy always succeeds, and it is independent."
  },
  {
   "property": "C138",
   "status": "partial",
   "theorems": [
    "C138_with_parameter",
    "C138_no_parameter_refuted",
    "C138_cdan_weights_refuted"
   ],
   "note": "REFUTED: prediction always passes sample_weight, so a network without this parameter can be trained but not used (C138_no_parameter_refuted); the CDAN module accepts no weights. Proved for networks with the parameter."
  },
  {
   "property": "C139",
   "status": "partial",
   "theorems": [
    "C139_probabilities",
    "C139_labels",
    "C139_first_largest",
    "C139_refused",
    "C139_other_criterion_refuted"
   ],
   "note": "REFUTED for a base criterion other than CrossEntropyLoss, where 'auto' is the identity (C139_other_criterion_refuted). Proved for the cross entropy; the labels never depend on the choice."
  },
  {
   "property": "C140",
   "status": "proved",
   "theorems": [
    "C140_rows",
    "C140_dataset",
    "C140_empty"
   ],
   "note": "Proved for features computed row by row (network in evaluation mode)."
  },
  {
   "property": "C141",
   "status": "proved",
   "theorems": [
    "C141_nonneg",
    "C141_symmetric",
    "C141_order",
    "C141_rigid",
    "C141_zero",
    "C141_defined",
    "C141_refused",
    "C141_value",
    "C141_cosine_scale"
   ],
   "note": "Singular values are an oracle with the contract singular_values of AlignSpec.v. Rigid motion: the same pairwise distances."
  },
  {
   "property": "C142",
   "status": "partial",
   "theorems": [
    "C142_default",
    "C142_single",
    "C142_list_once",
    "C142_list_refuted"
   ],
   "note": "REFUTED for a list of callbacks used for two nets: it is extended in place, and the epochs are counted twice (C142_list_refuted, for every list). Proved for None, one callback and a list used once."
  },
  {
   "property": "C143",
   "status": "partial",
   "theorems": [
    "C143_source_only",
    "C143_target_only",
    "C143_target_weights_refuted"
   ],
   "note": "REFUTED: TargetOnly cannot be trained with sample weights (C143_target_weights_refuted). Proved for training without weights: the loss is the base criterion on the own side only."
  },
  {
   "property": "C144",
   "status": "partial",
   "theorems": [
    "C144_dann",
    "C144_cdan_refused",
    "C144_cdan_size",
    "C144_mdd_refuted",
    "C144_mdd"
   ],
   "note": "REFUTED for MDD without n_classes: TypeError instead of ValueError (C144_mdd_refuted). Proved for DANN, SPA and CDAN and for MDD with n_classes."
  },
  {
   "property": "C145",
   "status": "proved",
   "theorems": [
    "C145_chain",
    "C145_features",
    "C145_classifier"
   ],
   "note": "Gradients in the sense of Frechet; the chain rule is proved (C145_chain). That autograd computes products with Jacobians is the contract of torch."
  },
  {
   "property": "C146",
   "status": "proved",
   "theorems": [
    "C146_nonneg",
    "C146_start",
    "C146_terms"
   ],
   "note": "Criterion and pseudo-label loss are inputs (the latter is C110)."
  },
  {
   "property": "C147",
   "status": "partial",
   "theorems": [
    "C147_completed",
    "C147_no_rewrite",
    "C147_early",
    "C147_interrupted_refuted",
    "C147_amazon_interrupted_refuted",
    "C147_concurrent_refuted",
    "C147_silent_refuted"
   ],
   "note": "REFUTED: the directory is created before the download, and only its existence is tested: after an interruption at any later step no call ever repairs the cache (C147_interrupted_refuted, for every history of later calls), Office-31 silently returns incomplete data with other labels (C147_silent_refuted), and a concurrent call sees the same (C147_concurrent_refuted). Proved for calls that are not interrupted."
  },
  {
   "property": "C148",
   "status": "proved",
   "theorems": [
    "C148_rows",
    "C148_names",
    "C148_same_labels",
    "C148_refused",
    "C148_categories"
   ],
   "note": "Proved. listdir+sorted, loadmat and the random permutation are oracles with contracts (a reordering of the files; a permutation of the positions)."
  },
  {
   "property": "C149",
   "status": "proved",
   "theorems": [
    "C149_one_of_all",
    "C149_partition",
    "C149_amazon"
   ],
   "note": "Proved; the csv file and the .mat files are lists of rows with labels."
  },
  {
   "property": "C150",
   "status": "partial",
   "theorems": [
    "C150_rows",
    "C150_range",
    "C150_all_refuted"
   ],
   "note": "REFUTED: rng.choice draws with replacement, so samples may be repeated and missing even for n_samples=1 (C150_all_refuted). Proved: number of rows, classes and labels, errors."
  },
  {
   "property": "C151",
   "status": "partial",
   "theorems": [
    "C151_labels_from_zero",
    "C151_one_per_sample",
    "C151_range",
    "C151_other_labels_refuted",
    "C151_float_labels_refuted"
   ],
   "note": "REFUTED: labels index the columns of an identity matrix, so labels other than 0..k-1 give the loss of another class or IndexError (C151_other_labels_refuted), float labels raise (C151_float_labels_refuted). Proved for integer labels 0..k-1."
  },
  {
   "property": "C152",
   "status": "partial",
   "theorems": [
    "C152_features",
    "C152_domain_free",
    "C152_sources_unmapped",
    "C152_same_features_refuted",
    "C152_source_target_refuted",
    "C152_per_domain_refuted",
    "C152_no_transform",
    "C152_unnamed_layer"
   ],
   "note": "REFUTED: the steps are called through transform without domain labels, so mapping adapters leave sources unmapped (C152_same_features_refuted), SelectSourceTarget uses the target step for every sample (C152_source_target_refuted) and PerDomain raises KeyError (C152_per_domain_refuted). Proved for steps that ignore domain labels."
  },
  {
   "property": "C153",
   "status": "proved",
   "theorems": [
    "C153_folds",
    "C153_selected",
    "C153_held_out",
    "C153_refuses",
    "C153_fit"
   ],
   "note": "Proved. The draws of the centres and the kernel are arbitrary; KFold is modelled. The shuffled index of lines 532-534 is never used by the code, so the folds follow the order of the samples."
  },
  {
   "property": "C154",
   "status": "partial",
   "theorems": [
    "C154_fit",
    "C154_problem",
    "C154_lengths",
    "C154_weights",
    "C154_label_function_refuted"
   ],
   "note": "REFUTED: on data other than those of fit the weight comes from the nearest sample in the feature space, not from the label, so equal labels may get different weights (C154_label_function_refuted). Proved: equal labels get equal fitted weights, bounds, nearest-neighbour rule."
  },
  {
   "property": "C155",
   "status": "partial",
   "theorems": [
    "C155_none",
    "C155_number",
    "C155_number_centered",
    "C155_refused",
    "C155_auto",
    "C155_covariance",
    "C155_definite",
    "C155_translation",
    "C155_assume_centered_refuted",
    "C155_coral",
    "C155_auto_constant"
   ],
   "note": "REFUTED: with the default reg=\"auto\" assume_centered has no effect, the data are centred anyway (C155_assume_centered_refuted, for all data). Everything else proved. ledoit_wolf's intensity is an oracle in [0,1] of the centred entries; sklearn's scaler is modelled."
  },
  {
   "property": "C156",
   "status": "proved",
   "theorems": [
    "C156_translation",
    "C156_units",
    "C156_no_shift"
   ],
   "note": "Proved; the density is an oracle that depends on the difference to the mean and the covariance, multiplied by a constant under a change of units (contracts of the multivariate normal)."
  },
  {
   "property": "C157",
   "status": "partial",
   "theorems": [
    "C157_proba_offered",
    "C157_domain_information",
    "C157_direct",
    "C157_direct_score",
    "C157_allow_source_refuted",
    "C157_chain_refuted",
    "C157_chain",
    "C157_not_fitted",
    "C157_weights_not_dropped"
   ],
   "note": "REFUTED: JDOTRegressor.predict/score request allow_source through the metadata of their parent class but their signatures refuse it, so passing it through a pipeline raises TypeError (C157_allow_source_refuted); fit of both JDOT estimators returns None, so fit(...).predict(...) raises AttributeError (C157_chain_refuted). What holds: C157_domain_information, C157_direct, C157_chain (DASVM, gradual), C157_not_fitted, C157_weights_not_dropped."
  },
  {
   "property": "C158",
   "status": "partial",
   "theorems": [
    "C158_dict_keys",
    "C158_arrays",
    "C158_arrays_without_weights",
    "C158_dict",
    "C158_dict_X",
    "C158_repairs",
    "C158_len",
    "C158_domains",
    "C158_add_domain",
    "C158_add_domain_weights_refuted"
   ],
   "note": "REFUTED for weights: add_domain drops the weights of the dataset and of the added domain (C158_add_domain_weights_refuted). The views give the dataset back (C158_arrays, C158_dict, C158_repairs), add_domain adds exactly the samples whatever the form (C158_add_domain), domains/len are right."
  },
  {
   "property": "C159",
   "status": "partial",
   "theorems": [
    "C159_weights",
    "C159_rows",
    "C159_successful",
    "C159_recover",
    "C159_type_errors",
    "C159_refused_weights_refuted",
    "C159_refused_merge_refuted"
   ],
   "note": "REFUTED: add_weights and merge(out=False) assign the attributes before the assertion, so a refused call leaves a dataset whose length raises AssertionError (C159_refused_weights_refuted, C159_refused_merge_refuted). What holds for every history, failures included: rows, labels and domains stay aligned (C159_rows), remove_weights makes the dataset usable again (C159_recover), successful histories keep weights aligned (C159_successful), type errors change nothing."
  },
  {
   "property": "C160",
   "status": "partial",
   "theorems": [
    "C160_given",
    "C160_estimator",
    "C160_defaults",
    "C160_linear_default_refuted",
    "C160_unknown",
    "C160_accepts",
    "C160_weights",
    "C160_label_propagation_default"
   ],
   "note": "REFUTED for LinearOTMapping: the default of reg is 1.0, documented (and used by the adapter class) as 1e-8 (C160_linear_default_refuted). All other arguments and defaults are passed on faithfully (C160_given, C160_defaults, C160_estimator), unknown names are refused, known ones accepted. OTLabelProp passes 0 where its adapter has None (both mean exact transport), excluded in C160_defaults."
  },
  {
   "property": "C161",
   "status": "proved",
   "theorems": [
    "C161_split",
    "C161_merge",
    "C161_weight_models",
    "C161_weights",
    "C161_maps",
    "C161_kernel_maps",
    "C161_estimators",
    "C161_shuffle_split",
    "C161_scores",
    "C161_selectors"
   ],
   "note": "All theorems quantify over keeps_roles renamings (InvSpec.v). Selectors: the routing oracle must be blind to values (name_blind); sst_fit needs a sample_domain to be known. Multi-domain components are C162."
  },
  {
   "property": "C162",
   "status": "proved",
   "theorems": [
    "C162_indices",
    "C162_per_domain_fit",
    "C162_per_domain_predict",
    "C162_monge",
    "C162_splitters",
    "C162_label_propagation",
    "C162_leave_one_out"
   ],
   "note": "Order must be kept by the splitters because numpy.unique sorts the labels and the random draws follow that order; C162_leave_one_out also needs f(-d) = -f(d) since the splitter tests -d."
  },
  {
   "property": "C163",
   "status": "proved",
   "theorems": [
    "C163_density_fit",
    "C163_discriminator_fit",
    "C163_gaussian_weights",
    "C163_kliep_weights",
    "C163_density_weights",
    "C163_discriminator_weights",
    "C163_maps",
    "C163_kernel_maps",
    "C163_monge",
    "C163_per_domain",
    "C163_supervised",
    "C163_entropy",
    "C163_soft_neighborhood",
    "C163_importance",
    "C163_covariance",
    "C163_moments_fit"
   ],
   "note": "Specification in OrderSpec.v (same_samples, same_values). KMM and MMDTarS are outside the statement (their optimisers may return different minimisers), as are kernel fit_transforms (C41_interleaved_refuted: TCA/TJM return sources first)."
  },
  {
   "property": "C164",
   "status": "proved",
   "theorems": [
    "C164_deep_coral",
    "C164_dan",
    "C164_mcc",
    "C164_mdd",
    "C164_can"
   ],
   "note": "Values are real numbers; the graph alignment loss is C141_order. Deep JDOT needs the same of its OT solver and is not included."
  },
  {
   "property": "C165",
   "status": "proved",
   "theorems": [
    "C165_toy2d_training_average",
    "C165_mnist_training_average",
    "C165_mnist_first_dropout",
    "C165_conv1",
    "C165_conv3",
    "C165_maxpool",
    "C165_flatten",
    "C165_pool",
    "C165_linear",
    "C165_relu",
    "C165_toy2d_sample_wise",
    "C165_toy2d_shape",
    "C165_toy2d_proba",
    "C165_dropout_mean",
    "C165_cnn_num_features",
    "C165_cnn_new",
    "C165_cnn_sample_wise",
    "C165_cnn_shape",
    "C165_mnist_sample_wise",
    "C165_mnist_accepts",
    "C165_mnist_shape"
   ],
   "note": "Proved for all weights and sizes; the non-linearity of ToyModule2D acts on single entries."
  },
  {
   "property": "C166",
   "status": "partial",
   "theorems": [
    "C166_names",
    "C166_reg_refuted",
    "C166_without_reg",
    "C166_missing",
    "C166_unknown",
    "C166_module_class_refuted",
    "C166_base_class_refuted",
    "C166_domain_class_refuted",
    "C166_layer_ignored_refuted"
   ],
   "note": "REFUTED in four ways: DeepJDOT and SPA document a parameter reg they do not have (TypeError, C166_reg_refuted); a module given as a class is refused (C166_module_class_refuted); with a criterion given as a class no batch has a loss (C166_base_class_refuted, C166_domain_class_refuted); the layer name SourceOnly and TargetOnly ignore according to their documentation must exist (C166_layer_ignored_refuted). Proved: all documented names of the other methods and all but reg of these two, in every combination, with training options; refusal of unknown and missing names."
  },
  {
   "property": "C167",
   "status": "proved",
   "theorems": [
    "C167_dann",
    "C167_mdd",
    "C167_divergences",
    "C167_deepjdot",
    "C167_spa",
    "C167_baselines",
    "C167_defaults",
    "C167_base_default",
    "C167_class_labels"
   ],
   "note": "The losses of the methods are those of C67, C70, C71, C103-C105, C110, C141; the value of the pseudo-label loss of SPA and the fitted k-means of CAN are inputs."
  },
  {
   "property": "C168",
   "status": "partial",
   "theorems": [
    "C168_tensors",
    "C168_labels_visible_refuted",
    "C168_mask_value_refuted",
    "C168_mask_value_arrays",
    "C168_arrays",
    "C168_arrays_to_tensors_refuted",
    "C168_unlabelled_refuted"
   ],
   "note": "REFUTED: with tensors and mask_target_labels=True the labels of the targets are returned in clear (C168_labels_visible_refuted, the dtype of a tensor is never one of the numpy types tested), a mask value makes the call raise TypeError unless arrays are asked for (C168_mask_value_refuted), arrays cannot be packed as tensors or DeepDADataset (C168_arrays_to_tensors_refuted), nor tensors without labels (C168_unlabelled_refuted). Proved: all return types without masking, and mask values with arrays or Bunch. Names are resolved as in DataModel; devices are not modelled."
  },
  {
   "property": "C169",
   "status": "partial",
   "theorems": [
    "C169_int_splits",
    "C169_int_leave_one_out",
    "C169_more_splits",
    "C169_more_domains",
    "C169_continue",
    "C169_seeding_before",
    "C169_int_others",
    "C169_seeding_before_others",
    "C169_int_kliep",
    "C169_source_target_valid",
    "C169_source_target_succeeds",
    "C169_domain_shuffle_valid",
    "C169_leave_one_out_valid",
    "C169_stratified_valid",
    "C169_shuffle_keeps_pairs",
    "C169_generated_int",
    "C169_generated_instance_refuted",
    "C169_generated_none",
    "C169_clustering_ignores_seed_refuted",
    "C169_fetch_default_refuted",
    "C169_clustering_refuted",
    "C169_shuffle_rows",
    "C169_pairing",
    "C169_stratified_refused"
   ],
   "note": "REFUTED: the data set generators refuse the documented RandomState instance (C169_generated_instance_refuted), the default of random_state in the fetch functions is documented as 0 but is None, so a shuffled data set depends on numpy's generator (C169_fetch_default_refuted), and SphericalKMeans ignores its random_state, so two fits with the same integer differ (C169_clustering_ignores_seed_refuted, C169_clustering_refuted). Proved for the splitters, the subsampler, MixVal, DEV, KLIEP, SubspaceAlignment and shuffled loading. numpy's and torch's generators are arbitrary deterministic state machines; the reset of torch's global generator by CDAN is C109. LeaveOneDomainOut obtains its generator anew for each domain, so for it the claims on seeding before the call and on continuing are not made."
  },
  {
   "property": "C170",
   "status": "partial",
   "theorems": [
    "C170_maps",
    "C170_coral_centred",
    "C170_ot_map",
    "C170_kernel_maps",
    "C170_kernel_maps_sources_first",
    "C170_monge",
    "C170_mmdls_classes",
    "C170_mmdls_nearest",
    "C170_kernel_training_refuted",
    "C170_gaussian",
    "C170_kliep",
    "C170_density",
    "C170_discriminator",
    "C170_kmm",
    "C170_mmdtars",
    "C170_per_domain",
    "C170_source_target",
    "C170_kmm_training_refuted"
   ],
   "note": "REFUTED on training data: KMM without smoothing returns the optimised weights when given exactly the training sources and kernel-smoothed values for a part of them (C170_kmm_training_refuted), and TCA and TJM return the rows of their training data in another order when sources and targets are mixed (C170_kernel_training_refuted). Holds for all other data, and for the kernel methods on any data with the sources first. NearestNeighborReweight is left out: its weights count the targets of the call. The fitted transport of the OT mappings is assumed to map rows one by one."
  },
  {
   "property": "C171",
   "status": "partial",
   "theorems": [
    "C171_any_case",
    "C171_unknown",
    "C171_all",
    "C171_all_raises",
    "C171_office31_hidden",
    "C171_amazon_regression_refuted",
    "C171_home_all",
    "C171_home_visible_refuted",
    "C171_container",
    "C171_container_refuted",
    "C171_csv",
    "C171_csv_refused",
    "C171_data_home"
   ],
   "note": "REFUTED: the labels of Office-Home are strings, which pack never masks, so mask_target_labels=True changes nothing (C171_home_visible_refuted); those of Amazon reviews are floats, masked by NaN, so that the two classes count as values of a regression (C171_amazon_regression_refuted); fetch_amazon_review and fetch_office_home return a DomainAwareDataset instead of the documented Bunch (C171_container_refuted). Everything else is proved, including the masking of Office-31. str.lower is modelled on ASCII letters."
  },
  {
   "property": "C172",
   "status": "partial",
   "theorems": [
    "C172_none_supervised",
    "C172_function_supervised",
    "C172_function_importance",
    "C172_function_mixval",
    "C172_string_supervised_refuted",
    "C172_function_refuted",
    "C172_string_refuted",
    "C172_unknown",
    "C172_options",
    "C172_made_supervised",
    "C172_made_mixval"
   ],
   "note": "REFUTED: a metric name makes SupervisedScorer raise TypeError on every input (C172_string_supervised_refuted), and makes the other two fail as well because sample_domain is handed on to the metric (C172_string_refuted); a function with the documented signature scorer(estimator, X, y) never yields a score either (C172_function_refuted). None and functions that accept the extra keywords work as described, and so do the options."
  },
  {
   "property": "C173",
   "status": "proved",
   "theorems": [
    "C173_estimators",
    "C173_like_new",
    "C173_order",
    "C173_recorded",
    "C173_value",
    "C173_kept"
   ],
   "note": "The methods of an estimator other than fit only read it (trusted); random splits are inputs, so the claim is about equal draws."
  },
  {
   "property": "C174",
   "status": "proved",
   "theorems": [
    "C174_motion",
    "C174_kliep",
    "C174_kliep_cv",
    "C174_density",
    "C174_kmm",
    "C174_nearest",
    "C174_mmdtars",
    "C174_mmdtars_continuous",
    "C174_kernel_maps",
    "C174_labels",
    "C174_instances",
    "C174_units",
    "C174_scale_sees_origin"
   ],
   "note": "Exact arithmetic. For any change of representation that keeps the kernel between two samples; C174_instances gives the rbf kernel, the distance and array equality under motions of R^d. The solvers get the kernel matrices; a solver looking at anything else is excluded by its type. The bandwidth chosen by gamma=\"scale\" does depend on the origin (X.var() is taken over all entries), so shifts need a bandwidth given as a number (C174_scale_sees_origin)."
  },
  {
   "property": "C175",
   "status": "proved",
   "theorems": [
    "C175_parameters",
    "C175_reading",
    "C175_forget"
   ],
   "note": "What a line computes is arbitrary; which attributes it reads and writes, on which branch and in which order, is transcribed from the source (HistModel). Excluded: a random_state that is a generator object (C169), parameters changed after __init__ derived an attribute from them (NearestNeighborReweightAdapter.base_estimator and _is_transformer of the selectors, see C131), base estimators whose own fit depends on earlier fits (warm_start). C175_ex_table shows that the same check rejects KLIEPReweightAdapter and GradualEstimator."
  },
  {
   "property": "C176",
   "status": "proved",
   "theorems": [
    "C176_jdot",
    "C176_label_prop",
    "C176_tsl",
    "C176_stratified_split",
    "C176_dasvm",
    "C176_mmdls",
    "C176_mixval",
    "C176_circular"
   ],
   "note": "The base estimators and scorers are arbitrary, with the contract that renaming their training labels renames what they learn and predict. Not included because the classes are numbers or indices there: the label propagation of several domains (JCPOT) returns indices of classes (C53), MMDTarSReweightAdapter computes a kernel of the labels as numbers (_reweight.py 1257), and the deep losses use labels as indices."
  },
  {
   "property": "C177",
   "status": "proved",
   "theorems": [
    "C177_kmm_solver_exists",
    "C177_mmdtars_solver_exists",
    "C177_kmm_scipy",
    "C177_kmm_frank_wolfe",
    "C177_mmdtars",
    "C177_feature_map",
    "C177_kmm_scipy_on",
    "C177_rbf_frank_wolfe",
    "C177_rbf_scipy",
    "C177_rbf_mmdtars"
   ],
   "note": "The feature map of the theorems has finite dimension. C177_feature_map shows that the rbf kernel, the default, has one on every finite data set, and C177_rbf_scipy, C177_rbf_frank_wolfe and C177_rbf_mmdtars state the results for it without that hypothesis. The scipy solver is external: its contract is that it returns a minimiser among the points meeting the constraints it received; C177_kmm_solver_exists and C177_mmdtars_solver_exists show that for every data set some solver meets it. The frank-wolfe bound needs no contract; there B is not enforced (see C39) and the bound holds for all competing non-negative weights, also those above B. MMDTarS is modelled for class labels; its matrix inverse and its label kernel are arbitrary."
  },
  {
   "property": "C178",
   "status": "proved",
   "theorems": [
    "C178_solver_exists",
    "C178_regression",
    "C178_classification",
    "C178_threshold"
   ],
   "note": "With a positive thr_weights (C178_threshold) the dropped weights are missing from the loss that the estimator minimises, so descent holds up to what they cost; there target weights are uniform. The estimator must predict rowwise; a regularised base estimator minimises another objective and is not covered. The scoring functions of the hinge metric must have one column per class, since a 1-D decision of a binary classifier is repeated in two columns (C88). C178_solver_exists: an exact transport solver exists, answering every problem with non-negative masses of equal sums."
  },
  {
   "property": "C179",
   "status": "proved",
   "theorems": [
    "C179_no_target_labels",
    "C179_classification",
    "C179_circular"
   ],
   "note": "When sample_domain is not given the domains are guessed from the masked labels, so the target labels matter there by design (C06). SupervisedScorer uses the target labels on purpose (C44)."
  },
  {
   "property": "C180",
   "status": "proved",
   "theorems": [
    "C180_reweighting",
    "C180_mapping",
    "C180_propagation",
    "C180_dasvm"
   ],
   "note": "Not included: the mapping adapters based on the transports of POT and GradualEstimator hand the target labels to POT, which uses those that are not -1 (semi-supervised transport, _mapping.py 61; see C93 for the gradual estimator); inside a pipeline these labels are masked (C13, C73). The other adapters receive no labels."
  },
  {
   "property": "C181",
   "status": "proved",
   "theorems": [
    "C181_propagation",
    "C181_jdot"
   ],
   "note": "JDOTRegressor passes the target weights as they are to its base estimator, hence the condition."
  },
  {
   "property": "C182",
   "status": "proved",
   "theorems": [
    "C182_trained_on_adapted_sources",
    "C182_trained_on_propagated_targets"
   ],
   "note": "Class labels of sources must not be -1 and continuous labels of sources must be finite, since those values mean masked (C11). A routed parameter that is a Python list with one entry per sample is excluded: indexing it fails (C11)."
  },
  {
   "property": "C183",
   "status": "proved",
   "theorems": [
    "C183_one_by_one",
    "C183_batches"
   ],
   "note": "That the adapters themselves treat samples one by one is C170. Simplification: every step receives the same parameters (sample_domain)."
  },
  {
   "property": "C184",
   "status": "proved",
   "theorems": [
    "C184_nothing_missing",
    "C184_source_target_outside"
   ],
   "note": "The non-final fit_transform of SelectSourceTarget is outside: it never succeeds (C184_source_target_outside, see C121). Outcomes of computations, including exceptions, are arbitrary."
  },
  {
   "property": "C185",
   "status": "proved",
   "theorems": [
    "C185_same_moments",
    "C185_same_second_moments",
    "C185_single_source"
   ],
   "note": "Contracts of POT's bures_wasserstein_barycenter: it returns a covariance; zero means give a zero mean; one domain is its own barycentre. The eigensolver is an oracle (MapModel)."
  },
  {
   "property": "C186",
   "status": "partial",
   "theorems": [
    "C186_coral_auto_refuted",
    "C186_coral_number",
    "C186_coral_reg",
    "C186_coral",
    "C186_coral_centred",
    "C186_monge",
    "C186_density",
    "C186_discriminator",
    "C186_kmm",
    "C186_label_propagation",
    "C186_label_propagation_regression",
    "C186_importance_scorer"
   ],
   "note": "REFUTED for CORAL's default reg=\"auto\": the intensity of Ledoit-Wolf depends on the number of samples, so sources and targets with equal covariances but different sample sizes are changed (C186_coral_auto_refuted). Proved for reg=None and every number, and for every reg when the two data sets are the same (C186_coral_reg); the other methods as stated. KMM: solver scipy, B >= 1, with a minimiser as in C177. OT label propagation: an exact plan for a cost that is zero only on equal rows, no sample weights, equal sources with equal labels."
  },
  {
   "property": "C187",
   "status": "partial",
   "theorems": [
    "C187_coral_auto_refuted",
    "C187_coral_number",
    "C187_coral_sources",
    "C187_coral_targets",
    "C187_coral_centred",
    "C187_monge"
   ],
   "note": "REFUTED for CORAL's default reg=\"auto\", which shrinks towards the variances of the single features: sources with variances 1 and 9 and white targets, turned by a rotation, are not mapped to the turned images (C187_coral_auto_refuted, for every amount of shrinkage). Proved for reg=None and every number (C187_coral_number), and for the Monge alignment. Contract of POT's bures_wasserstein_barycenter (moves_along): the barycentre of moved Gaussians is the moved barycentre. The eigensolver is an oracle: only its contract is used, so it may choose other eigenvectors for the moved data."
  },
  {
   "property": "C188",
   "status": "proved",
   "theorems": [
    "C188_X",
    "C188_X_y",
    "C188_X_y_then_X"
   ],
   "note": "At least as much: every flag that is on stays on, and allow_domains keeps its entries or is None."
  },
  {
   "property": "C189",
   "status": "proved",
   "theorems": [
    "C189_same_features"
   ],
   "note": "Steps are Shared selectors whose fit_transform returns the rows of their fitted transform, which may depend on the domain of the sample."
  },
  {
   "property": "C190",
   "status": "proved",
   "theorems": [
    "C190_coral",
    "C190_coral_maps",
    "C190_gaussian",
    "C190_monge",
    "C190_entropy",
    "C190_mano",
    "C190_dan"
   ],
   "note": "The Ledoit-Wolf shrinkage (\"auto\") depends on the sample size and is excluded, as is the DeepCORAL loss, whose covariances divide by n - 1. For the scores both calls are assumed to succeed and all copies are tiled over both domains."
  },
  {
   "property": "C191",
   "status": "partial",
   "theorems": [
    "C191_defaults_partial",
    "C191_kmm_refuted",
    "C191_default_estimator",
    "C191_starting_point_refuted"
   ],
   "note": "REFUTED: KMMReweightAdapter documents max_iter=100 but uses 1000, and the frank-wolfe solver of qp_solve does not start from ones. All other documented defaults (82 of them, over twenty classes) are proved, as are the estimators used when none is given."
  },
  {
   "property": "C192",
   "status": "proved",
   "theorems": [
    "C192_clusters_are_classes"
   ],
   "note": "Source labels 0, ..., n-1, each class being present on both sides (for other labels see C108); features and mean directions of norm at least 1e-8 (the clamp of cosine_similarity)."
  },
  {
   "property": "C193",
   "status": "proved",
   "theorems": [
    "C193_label_propagation",
    "C193_label_propagation_regression",
    "C193_mapping"
   ],
   "note": "The solver is an oracle constrained to return an optimal coupling of the given masses (exact_plan, optimal_plan); POT's transform of the training samples is the barycentric one (barycentric). Finite numbers are exact."
  },
  {
   "property": "C194",
   "status": "partial",
   "theorems": [
    "C194_likelihood_refuted",
    "C194_iterations",
    "C194_gradient"
   ],
   "note": "REFUTED: the gradient step has the size of the rounding error of 64-bit floats (EPS = 2^-52, _reweight.py lines 35 and 513), so the iteration converges, by its own criterion, at the projection of the initial coefficients: for three sources at 0 and one at 2, one target at 0 and one at 2, all source weights are within 5% of 1 although weights 2/3 and 2 (the true ratio of the densities) are admissible and more likely by a factor of at least exp(1/5) (C194_likelihood_refuted). Proved: the iteration follows the gradient (C194_gradient) and obeys its stopping rule (C194_iterations)."
  },
  {
   "property": "C195",
   "status": "partial",
   "theorems": [
    "C195_objective",
    "C195_regulariser",
    "C195_classes",
    "C195_gaussian_refuted",
    "C195_label_kernel_refuted",
    "C195_label_kernel",
    "C195_numbers"
   ],
   "note": "REFUTED: the kernel is exp(-gamma |x - y|), the distance is not squared (_mapping.py lines 1054, 1078, 1079), so for two targets the function prefers a source on top of one of them to the middle, which the Gaussian kernel prefers (C195_gaussian_refuted); and the matrix regularised by reg_k is the kernel matrix of the source features, not of the labels, so sources of one class get different weights (C195_label_kernel_refuted). Proved: with the kernel and weights used, the function is the announced sum up to a term of the targets only (C195_objective), the regulariser vanishes exactly at the identity, classes have their own maps and the start is the identity. torch.linalg.inv is an oracle constrained to invert; numbers are exact reals."
  },
  {
   "property": "C196",
   "status": "partial",
   "theorems": [
    "C196_matters",
    "C196_test_time_refuted",
    "C196_verbose_refuted",
    "C196_unseen_domain_refuted",
    "C196_center_refuted",
    "C196_sigma_ch_refuted"
   ],
   "note": "REFUTED: test_time of MultiLinearMongeAlignmentAdapter and verbose of JCPOTLabelPropAdapter are never read (C196_test_time_refuted, C196_verbose_refuted), a new target domain is a KeyError whatever test_time is (C196_unseen_domain_refuted), and center and sigma_ch of two generators do nothing (C196_center_refuted, C196_sigma_ch_refuted; there the model's signature has the argument and its body, modelled from the code, does not). SphericalKMeans.random_state is C169. Proved for all other parameters: for some meaning of the lines the parameter makes a visible difference; that the real computations do is not claimed."
  },
  {
   "property": "C197",
   "status": "partial",
   "theorems": [
    "C197_waits",
    "C197_until_fit",
    "C197_coral_refuted",
    "C197_kernel_refuted"
   ],
   "note": "REFUTED for twelve parameters that methods read after fitting (the exact table read_later): assume_centered of CORALAdapter changes what a fitted adapter returns (C197_coral_refuted), and a kernel set on a fitted TCA or TJM is combined with the projection of the old kernel (C197_kernel_refuted). Proved for all others, for every meaning of the lines, every state and every sequence of calls (C197_waits, C197_until_fit)."
  },
  {
   "property": "C198",
   "status": "partial",
   "theorems": [
    "C198_coral_auto_refuted",
    "C198_coral",
    "C198_coral_centred",
    "C198_monge"
   ],
   "note": "REFUTED for CORAL with shrinkage, the default: with white sources and correlated targets the second alignment changes rows again, for reg=\"auto\" and for every number strictly between 0 and 1 (C198_coral_auto_refuted). Proved for CORAL with reg=None (empirical covariances), both centred modes, and for Monge with bias=True. The eigensolver and POT's barycentre are oracles with contracts: the barycentre is a covariance, is definite for definite inputs, and of equal Gaussians is that Gaussian."
  },
  {
   "property": "C199",
   "status": "proved",
   "theorems": [
    "C199_source_target",
    "C199_one_domain",
    "C199_one_side"
   ],
   "note": "Calls on the wrapped estimators are compared exactly: rows, labels and parameters. For SelectSourceTarget when fitting succeeds (it insists on both sides being present). For PerDomain under the condition that what reaches the estimator has one entry per sample; masked samples removed before the split are the misalignment of C16. SelectSource and SelectTarget without masking, as in SelectSourceTarget."
  },
  {
   "property": "C200",
   "status": "proved",
   "theorems": [
    "C200_coral_centred",
    "C200_coral",
    "C200_monge",
    "C200_coral_reg"
   ],
   "note": "CORAL with every reg (C200_coral_reg); Monge with one source and one target domain, each fit with its own domain labels. The eigensolver and POT's barycentre are oracles with contracts: the barycentre is a covariance, and of a single Gaussian is that Gaussian."
  },
  {
   "property": "C201",
   "status": "partial",
   "theorems": [
    "C201_never_too_many",
    "C201_all_and_none",
    "C201_monotone",
    "C201_within_one",
    "C201_exact_refuted",
    "C201_target_shift",
    "C201_cut_off"
   ],
   "note": "REFUTED as to the exact integer part: under_sampling=0.7 of 90 samples keeps 62, not 63, because 0.7 is rounded down. Everything else is proved: never more than n, n for 1, 0 for 0, monotone, and the count is the exact integer part of n times the stored fraction or one more when that product is within half a unit in the last place below an integer; target shift sizes can be drawn; the cut-off index of gradual adaptation exists. binary64 from Flocq, rounding to nearest even, no overflow."
  },
  {
   "property": "C202",
   "status": "proved",
   "theorems": [
    "C202_nonnegative",
    "C202_constraint",
    "C202_million",
    "C202_no_rounding",
    "C202_weights_in_range",
    "C202_weights_sum",
    "C202_returns"
   ],
   "note": "Non-negativity and the range of the weights in binary64 with gradual underflow; the bounds on the constraint and the sum for any order preserving rounding with relative error u, in particular 53 bit precision without under- or overflow. C202_no_rounding: without rounding the program is the exact model of C08. Gradients are oracles."
  },
  {
   "property": "C203",
   "status": "partial",
   "theorems": [
    "C203_accurate",
    "C203_power_of_two",
    "C203_last_step_refuted"
   ],
   "note": "REFUTED for the default of ten steps: the last intermediate sample for the target value 5/11 differs from it in the last place. Proved: the error is at most three roundings, and the last step is exact when the number of steps is a power of two."
  },
  {
   "property": "C204",
   "status": "partial",
   "theorems": [
    "C204_density",
    "C204_scorer",
    "C204_kde",
    "C204_overflow",
    "C204_new_sample_refuted",
    "C204_signs"
   ],
   "note": "REFUTED for new samples: with a Gaussian kernel fitted on the source sample 0 and the target sample 100, the weights of the source samples 0 and 70 are 0 and nan (C204_new_sample_refuted). Proved: finite and at most 2n (at most 1 for the score) when no log-ratio exceeds 300 (C204_density, C204_scorer), which holds for every peaked kernel at the samples the source density was fitted on (C204_kde); and C204_overflow says exactly which weights become nan once a log-ratio passes 1024. exp and log are correctly rounded, the log density is the rounding of the exact value."
  },
  {
   "property": "C205",
   "status": "partial",
   "theorems": [
    "C205_number",
    "C205_nan",
    "C205_temperature_refuted"
   ],
   "note": "REFUTED for temperatures below 1/1120: two equal certain predictions at temperature 1/2000 score nan (C205_temperature_refuted), and C205_nan: always, for at least two samples and temperatures between 2^-800 and 1/1120. Proved for temperatures of at least 1/100 (C205_number; the default is 0.05) and up to 2^20 samples. exp and log are correctly rounded."
  },
  {
   "property": "C206",
   "status": "proved",
   "theorems": [
    "C206_contract_met",
    "C206_alignment_contracts",
    "C206_all_components",
    "C206_default_is_all",
    "C206_transfer_subspace"
   ],
   "note": "The principal component analysis is an oracle: its component rows are orthonormal and, by default, as many as the features. For transfer subspace learning the final QR factor is orthogonal (qr_contract). C206_alignment_contracts shows which model definitions give these rows. C206_contract_met shows that some analysis meets the contract."
  },
  {
   "property": "C207",
   "status": "partial",
   "theorems": [
    "C207_density",
    "C207_gaussian",
    "C207_scorer",
    "C207_histogram",
    "C207_discriminator_refuted"
   ],
   "note": "REFUTED for DiscriminatorReweightAdapter: with the exact probability p of being a target its weights are proportional to (1-p)/p, the density ratio upside down, so they move the average away from the target (sources 1,1,1,2, targets 1,2,2,2: 29/28 where the targets have 7/4 and the unweighted sources 5/4). Proved for density and Gaussian weights and for the scorer; C207_histogram shows that the histogram is an exact estimate. Distributions are empirical ones."
  },
  {
   "property": "C208",
   "status": "proved",
   "theorems": [
    "C208_zero",
    "C208_one",
    "C208_auto_full",
    "C208_none"
   ],
   "note": "Proved over the reals for every correct symmetric eigensolver (C86_eigensolver_exists: there is one for every number of features). The values between the ends are described by C155. The intensity of Ledoit-Wolf is an oracle."
  },
  {
   "property": "C209",
   "status": "partial",
   "theorems": [
    "C209_shuffle_split",
    "C209_domain_shuffle",
    "C209_lodo",
    "C209_stratified_train",
    "C209_stratified_test",
    "C209_stratified_refuted"
   ],
   "note": "REFUTED for StratifiedDomainShuffleSplit: with one class, 2 targets, 18 sources and default sizes the request is accepted and no test part ever holds a target, whatever is drawn (C209_stratified_refuted). Proved for SourceTargetShuffleSplit, DomainShuffleSplit and LeaveOneDomainOut; for the stratified splitter, a (class, domain) group is represented in training when its share is at least one sample, and in the test part, for complementary sizes, when its share is more than one. scikit-learn's _approximate_mode is an oracle with the contract mode_of (FoldSpec), permutations are oracles."
  },
  {
   "property": "C210",
   "status": "proved",
   "theorems": [
    "C210_label_propagation",
    "C210_plain_mean",
    "C210_class_shares",
    "C210_jdot"
   ],
   "note": "Proved over the reals; the transport solver is an oracle whose plan has the two marginals (coupling). Choosing one class per target does not keep the shares, as C210_hard_labels_ex shows; this is not claimed."
  },
  {
   "property": "C211",
   "status": "proved",
   "theorems": [
    "C211_jdot_features_only",
    "C211_jdot_is_label_propagation",
    "C211_jdot_labels_only",
    "C211_jdot_class_labels_only",
    "C211_jdot_class_features_only",
    "C211_no_under_sampling"
   ],
   "note": "Proved over the reals. The transport solver and the estimator are deterministic oracles; for the comparison with OTLabelProp the solver returns the same plan when all costs are divided by their mean. For alpha=1 the mean distance is not zero (the code divides by it)."
  },
  {
   "property": "C212",
   "status": "partial",
   "theorems": [
    "C212_careful",
    "C212_careless_refuted"
   ],
   "note": "REFUTED for 16 of the 32 classes, each with a line that can raise after something was stored: the OT adapters replace the fitted transport before fitting the new one, CORAL and the Gaussian adapter store the new means before the covariance is estimated (which refuses, for example, an invalid reg), subspace alignment stores the new source components before fitting the target's, TCA, TJM, MMDTarS and MMDLSConS store the new data first, DASVM and the gradual estimator fit their parameter in place, KLIEP stores the bandwidth first. Proved for the other 16, which compute everything before storing it. What a line computes is arbitrary; the lines that only store a computed value are assumed not to raise (storing). Interruptions between two such lines are not considered."
  },
  {
   "property": "C213",
   "status": "partial",
   "theorems": [
    "C213_entropy",
    "C213_mano",
    "C213_mano_small_p_refuted",
    "C213_supervised",
    "C213_importance",
    "C213_circular",
    "C213_snd_constant",
    "C213_snd_refuted",
    "C213_dev_refuted",
    "C213_mixval_constant",
    "C213_mixval_refuted"
   ],
   "note": "Proved for SupervisedScorer and ImportanceWeightedScorer with the (weighted) accuracy, for PredictionEntropyScorer with exact log-probabilities, for MaNo with p >= 1, and for CircularValidation when the copy trained backwards returns the source labels. REFUTED for SoftNeighborhoodDensity: a model that gives all n targets the same probabilities gets at least ln(n-1), no model can get more than ln n, and with the default temperature the right model on two classes of two targets is ranked below it. REFUTED for MixVal: a constant answer always gets the best value 1, the right model on classes that are not convex gets less. REFUTED for DEV: the control variate makes the risk of a model that is wrong everywhere negative, below the zero of the right one. REFUTED for MaNo with the accepted values p < 1, which rank ignorance above certainty."
  },
  {
   "property": "C214",
   "status": "partial",
   "theorems": [
    "C214_kmeans_iterations",
    "C214_kmeans_restarts",
    "C214_kmeans",
    "C214_bandwidths",
    "C214_kmm",
    "C214_frank_wolfe_refuted",
    "C214_jdot_regression",
    "C214_jdot_classification"
   ],
   "note": "Proved for SphericalKMeans (max_iter, tol and the initialisations, together and separately), for KLIEP's list of bandwidths, for KMM with an exact solver (B and eps) and for JDOT (n_iter_max and tol; the longer run starts as the shorter one). REFUTED for KMM with solver='frank-wolfe' and max_iter: the step lengths are fixed and the last iterate is returned, so three iterations can be optimal and the fourth one worse (only the guaranteed bound of C78 improves)."
  },
  {
   "property": "C215",
   "status": "partial",
   "theorems": [
    "C215_classes",
    "C215_class_minus_one_refuted",
    "C215_auto_domain_refuted",
    "C215_numbers",
    "C215_circular_numbers",
    "C215_circular_whole_numbers_refuted"
   ],
   "note": "Proved: with numbers as labels every source with a finite label is trained on, -1 included, and CircularValidation passes real-valued predictions on unchanged; with classes the training set is exactly the sources whose class is not -1. REFUTED for a class called -1 (the usual -1/+1 convention): its source samples are always dropped without a message, and without sample_domain they are declared targets. REFUTED for regression with whole-number source labels in CircularValidation: the backward copy is trained on the ranks of the predictions and any non-integer prediction of it raises ValueError."
  },
  {
   "property": "C216",
   "status": "partial",
   "theorems": [
    "C216_label_propagation",
    "C216_jdot",
    "C216_origin",
    "C216_unit_refuted",
    "C216_whole_numbers_refuted"
   ],
   "note": "Proved: propagated numbers follow every affine change of the labels; a JDOT run follows every change of the origin, and a change of unit by c if alpha is changed to the equivalent trade-off (the two runs then have the same plans and proportional losses and differ only in when they stop). REFUTED with the default alpha = 1/2: with two sources and three targets, labels 0 and 1 give the predictions 1, 1/2, 0, and the same labels in a unit twice as large give 3/8, 1/4, 1/8 instead of 1/2, 1/4, 0, for every exact solver, tolerance and number of iterations from two on. REFUTED for label propagation when the change makes all labels whole numbers: 0.5 and 1 are averaged, the same lengths written 1 and 2 are classes and the target gets 1."
  },
  {
   "property": "C217",
   "status": "partial",
   "theorems": [
    "C217_propagation",
    "C217_jdot_refuted",
    "C217_deep",
    "C217_deep_refuted"
   ],
   "note": "Proved: leaving out sources of weight zero changes no label that label propagation gives to a target, for classes and for numbers. The loss of a deep batch is multiplied by the ratio of the numbers of source samples. REFUTED for JDOT: a third source of weight zero far from the targets changes the mean distance by which the distances are divided, and the predictions change from 3/8, 1/4, 1/8 to 1/2, 1/4, 0. REFUTED for deep models: losses 3 and 5 give 4, and 8/3 with a third sample of weight zero."
  },
  {
   "property": "C218",
   "status": "proved",
   "theorems": [
    "C218_monge",
    "C218_monge_linear",
    "C218_coral_uncorrelated",
    "C218_coral_longer"
   ],
   "note": "Proved, with the exact excess: another arrangement is farther by the sum of the quadratic forms of the inverse map at the differences, so the aligned rows are also the only closest ones. For comparison CORAL: least when the features are uncorrelated in both domains (C218_coral_uncorrelated), in general not: C218_coral_longer gives four sources and four targets for which rows with the same covariance lie strictly closer."
  },
  {
   "property": "C219",
   "status": "partial",
   "theorems": [
    "C219_monge",
    "C219_coral",
    "C219_coral_alike",
    "C219_coral_refuted"
   ],
   "note": "Proved for Monge alignment. For CORAL an equivalence: a row and its copy are adapted to the same point for all rows if and only if the stretch commutes with the covariance of the sources (C219_coral), hence always when all features are stretched alike and shifted in any way (C219_coral_alike). REFUTED for CORAL in general: sources with covariance [[5, 3], [3, 2]] and the first feature doubled in the target, for every shift and eigensolver."
  },
  {
   "property": "C220",
   "status": "partial",
   "theorems": [
    "C220_weights",
    "C220_features",
    "C220_labels",
    "C220_default_bandwidth_refuted"
   ],
   "note": "Proved for every bandwidth given as a number. REFUTED for KMM's default gamma=None, which is one over the number of features: fitted on the source 0, the source row 1 gets the weight exp(-1), and exp(-1/2) after a constant feature has been added, for every number of iterations (C220_default_bandwidth_refuted)."
  },
  {
   "property": "C221",
   "status": "partial",
   "theorems": [
    "C221_merge",
    "C221_ot_mapping",
    "C221_coral",
    "C221_subspace",
    "C221_mmdls",
    "C221_circular",
    "C221_pack",
    "C221_pack_masked_refuted",
    "C221_monge_refuted",
    "C221_mixed_merge_refuted"
   ],
   "note": "Proved for splitting and merging of two arrays of whole numbers, optimal-transport mapping, CORAL, subspace alignment, transfer subspace learning, MMDLSConS, circular validation, and packing without hidden labels or with a given mask. REFUTED for multi-domain Monge alignment (3 stored as an integer and mapped to 3/2 comes out as 1), for merging integer sources with fractional targets (the fractions are cut off) and for packing with hidden target labels (classes stored as floats are masked with NaN and the packed labels count as a regression target)."
  },
  {
   "property": "C222",
   "status": "partial",
   "theorems": [
    "C222_arrays",
    "C222_scalar",
    "C222_list_refuted",
    "C222_large_role_refuted",
    "C222_large_merged_refuted",
    "C222_merge"
   ],
   "note": "Proved for arrays of integers or floats whose labels fit in 32 bits, and for a single number. REFUTED for lists and tuples: every list the checks accept as an array raises TypeError (they index it with an array), and merging raises AttributeError. REFUTED for labels beyond 32 bits: every source domain numbered from 2^31 to 2^32 - 1 is taken for a target, and two domains whose numbers differ by 2^32 become one."
  },
  {
   "property": "C223",
   "status": "partial",
   "theorems": [
    "C223_same_steps",
    "C223_same_names",
    "C223_predicted_labels_refuted",
    "C223_nested_masking_refuted",
    "C223_names_refuted"
   ],
   "note": "Proved for any number of plain estimators before, inside and after the nested pipeline and both default selectors when no step up to the end of the nested pipeline predicts target labels (step names: when no class occurs both inside and outside). REFUTED when a label-predicting step is inside the nested pipeline (the estimators after it are told to hide the predicted labels again) or before it (the nested estimators hide them), and for the names of classes that occur inside and outside."
  },
  {
   "property": "C224",
   "status": "partial",
   "theorems": [
    "C224_propagation",
    "C224_jdot",
    "C224_deep",
    "C224_deep_ones",
    "C224_deep_refuted"
   ],
   "note": "Proved for label propagation, JDOTClassifier and JDOTRegressor (whose base estimator receives the target weights and must itself treat equal weights as none), and for deep models when the common weight is 1. REFUTED for deep models: a common weight of 2 doubles the base loss and not the adaptation loss, and with a criterion that returns one number weights of 1 are an error."
  },
  {
   "property": "C225",
   "status": "proved",
   "theorems": [
    "C225_temperature",
    "C225_power",
    "C225_threshold",
    "C225_alpha",
    "C225_mano"
   ],
   "note": "Proved over the reals: the temperature by Gibbs' inequality, the power by the power mean inequality (for rows that are probabilities, so for deep models when the normalisation is defined, C51), the threshold as a selection from the training set of the lower threshold, alpha for two fits that both succeed (ties can make a fit fail, C59)."
  },
  {
   "property": "C226",
   "status": "partial",
   "theorems": [
    "C226_kliep",
    "C226_kmm",
    "C226_kernel_maps",
    "C226_coral",
    "C226_monge",
    "C226_nearest_refuted"
   ],
   "note": "REFUTED for the nearest-neighbour weights: two sources arbitrarily close together, one takes all the targets and the other none (C226_nearest_refuted). Proved with explicit constants for KLIEP and KMM (new samples, or smooth_weights) and the two kernel maps, 2 sqrt(gamma) times the sum of the absolute coefficients, and for CORAL and Monge alignment, the Frobenius norm of the linear part."
  },
  {
   "property": "C227",
   "status": "partial",
   "theorems": [
    "C227_left_out",
    "C227_default_epoch",
    "C227_one_side",
    "C227_trains_on_all",
    "C227_validation_apart",
    "C227_default_split_refuted",
    "C227_valid_split_refuted"
   ],
   "note": "REFUTED: with the default train_split of skorch, and with every skorch ValidSplit, fit raises TypeError, because is_fit=True is passed on to the split (C227_default_split_refuted, C227_valid_split_refuted); the net must be built with train_split=None or a split that accepts all keywords. Proved: the exact number of samples left out by an epoch of each loader, that training steps on these batches only, and that a predefined validation set does not influence the parameters."
  },
  {
   "property": "C228",
   "status": "partial",
   "theorems": [
    "C228_dev_column",
    "C228_dev_equal_weights_refuted",
    "C228_dev_default_refuted",
    "C228_dev_larger_refuted",
    "C228_importance"
   ],
   "note": "Proved for ImportanceWeightedScorer with any score that is a weighted average over samples, and, except for monotonicity, for DeepEmbeddedValidation with losses of one column and weights that are not all equal. REFUTED for DeepEmbeddedValidation: with the default loss a model whose loss is 2 on every sample gets risk 0 (C228_dev_default_refuted, from the broadcasting of C48); when all weights are equal, a loss of 1 gets risk 2 (C228_dev_equal_weights_refuted, eta is set to 0); the control variate can turn a larger loss into a smaller, even negative, risk (C228_dev_larger_refuted)."
  },
  {
   "property": "C229",
   "status": "partial",
   "theorems": [
    "C229_read",
    "C229_set",
    "C229_unknown",
    "C229_base_estimator_refuted"
   ],
   "note": "Proved for every path that does not end with base_estimator at a selector. REFUTED there (C229_base_estimator_refuted): when the estimator has a parameter base_estimator of its own (JDOTRegressor, JDOTClassifier, DASVMClassifier, GradualEstimator), step__base_estimator reads the estimator itself, setting it replaces the whole estimator, and None is not set at all. One key per set_params call; SelectSourceTarget is left out (it has no parameters, C120)."
  },
  {
   "property": "C230",
   "status": "partial",
   "theorems": [
    "C230_coral",
    "C230_dan",
    "C230_jdot",
    "C230_cdd",
    "C230_cdd_refuted",
    "C230_coral_units",
    "C230_dan_units"
   ],
   "note": "DeepCORAL (each batch may even be shifted on its own), DAN with given or default bandwidths and DeepJDOT are proved. REFUTED for the contrastive discrepancy (C230_cdd_refuted): the confident target samples are selected feature by feature (C105), so that turning features and centroids together changes which samples are used; when the same samples are selected the loss is invariant (C230_cdd). The default bandwidths of DAN contain eps, the exact change of unit is stated for given bandwidths."
  },
  {
   "property": "C231",
   "status": "partial",
   "theorems": [
    "C231_label_regression",
    "C231_label_class",
    "C231_jdot_regression",
    "C231_jdot_classification",
    "C231_coral",
    "C231_gaussian_refuted",
    "C231_density"
   ],
   "note": "REFUTED for GaussianReweight (C231_gaussian_refuted): with every reg the covariance of a single sample is estimated by 0; fit accepts it and the weights are refused by scipy, with an error about a singular matrix. The rest is proved. The plans are couplings of the weights (contract of the transport solver), the eigensolver is correct, the covariance of the sources positive definite; scipy's density refuses covariances that are not positive definite."
  },
  {
   "property": "C232",
   "status": "partial",
   "theorems": [
    "C232_label_propagation",
    "C232_jdot",
    "C232_can_refuted",
    "C232_tars"
   ],
   "note": "REFUTED for CAN (C232_can_refuted): with one class and therefore one cluster the contrastive discrepancy divides the number 0 by 0, for all batches. The rest is proved; plans are couplings, the solution of MMDTarS meets its constraints. Whether the classifier given to JDOT can be fitted on one class is its own affair: the theorem is about every result."
  },
  {
   "property": "C233",
   "status": "partial",
   "theorems": [
    "C233_dasvm",
    "C233_gradual",
    "C233_jdot",
    "C233_label_propagation",
    "C233_jcpot_refuted"
   ],
   "note": "REFUTED for JCPOT (C233_jcpot_refuted): it returns column numbers, so with source classes 5 and 7 the target labels are 0 and 1. Proved for the other methods. Contract: the classifier predicts a label it was fitted on."
  },
  {
   "property": "C234",
   "status": "proved",
   "theorems": [
    "C234_together",
    "C234_one",
    "C234_replaced"
   ],
   "note": "Model of scikit-learn's grouping of the arguments by their first name and of the selector's own base_estimator argument. Paths that name base_estimator of a selector are those of C229; here they occur as the replacement only."
  },
  {
   "property": "C235",
   "status": "proved",
   "theorems": [
    "C235_jdot_regression",
    "C235_jdot_classification",
    "C235_tjm",
    "C235_kmeans",
    "C235_kliep"
   ],
   "note": "Proved. Random restarts of k-means and the choice of the KLIEP centres are inputs. Gradual adaptation is not a case of this: its number of steps divides the way and is no limit."
  },
  {
   "property": "C236",
   "status": "proved",
   "theorems": [
    "C236_splits",
    "C236_leave_one_out",
    "C236_balanced_sampler",
    "C236_one_side_sampler",
    "C236_balanced_loader",
    "C236_one_side_loader"
   ],
   "note": "Proved for every run that raises nothing. The length of a data loader is torch's rule, the length of the sampler divided by the batch size and rounded up. LeaveOneDomainOut is asked with the domain labels of the data; without them it raises."
  },
  {
   "property": "C237",
   "status": "proved",
   "theorems": [
    "C237_merge_associative",
    "C237_select_of_merge",
    "C237_selections_commute",
    "C237_selection_inside",
    "C237_selections_disjoint"
   ],
   "note": "Proved, for merges that return a new data set (the default) of tensors that belong together, as every constructor gives them (C62). Merges in place leave stale sample numbers, see C98."
  },
  {
   "property": "C238",
   "status": "proved",
   "theorems": [
    "C238_moved_among_targets"
   ],
   "note": "Proved. That POT moves a training sample to the barycentre of the targets under its plan is the contract of the transport; an iterative solver meets the marginals only up to its tolerance."
  },
  {
   "property": "C239",
   "status": "proved",
   "theorems": [
    "C239_supervised",
    "C239_entropy",
    "C239_soft_neighbourhood",
    "C239_mixval",
    "C239_mano"
   ],
   "note": "Proved. MixVal draws its permutation from the seed; the two evaluations are compared with the same draw, which has the same length because the targets are the same."
  },
  {
   "property": "C240",
   "status": "proved",
   "theorems": [
    "C240_fit",
    "C240_masked",
    "C240_apply"
   ],
   "note": "Proved. Hidden labels of plain predictors are not included: there fit fails (C16)."
  },
  {
   "property": "C241",
   "status": "proved",
   "theorems": [
    "C241_close",
    "C241_unique",
    "C241_equality",
    "C241_two_sided"
   ],
   "note": "Proved in real arithmetic. That scipy's minimiser is exact when it returns is its contract. Upper bounds on single variables are not included: frank-wolfe ignores them (C10)."
  },
  {
   "property": "C242",
   "status": "proved",
   "theorems": [
    "C242_kmeans_iterations",
    "C242_kmeans_ends",
    "C242_jdot_regression",
    "C242_jdot_classification",
    "C242_jdot_threshold"
   ],
   "note": "Proved in real arithmetic. For JDOT the estimator is an exact minimiser over a set of functions and the transport solver is exact (the contracts of C178). The case in which a solver or estimator raises is included: the exception is the same for all limits from some limit on."
  },
  {
   "property": "C243",
   "status": "partial",
   "theorems": [
    "C243_kmm",
    "C243_kmm_frank_wolfe",
    "C243_frank_wolfe_refuted",
    "C243_subspace_alignment",
    "C243_coral",
    "C243_coral_refuted",
    "C243_coral_shrunk",
    "C243_transport"
   ],
   "note": "REFUTED for KMM with solver='frank-wolfe' and few iterations (source 1, target 2/3, two iterations: distance 4/9 instead of 1/9; proved up to 16 kappa (1+e)^2/(max_iter+2)) and for CORAL with reg=1, which only matches the overall spread (witness with four samples). Proved for KMM with solver='scipy', subspace alignment, the OT mapping (transport cost between the domains), CORAL without shrinkage (distance 0), and CORAL with 0 < reg < 1 when the overall spreads agree."
  },
  {
   "property": "C244",
   "status": "proved",
   "theorems": [
    "C244_coral",
    "C244_coral_shrunk",
    "C244_coral_any",
    "C244_coral_uncorrelated",
    "C244_monge",
    "C244_coral_alone"
   ],
   "note": "Proved in real arithmetic. Monge alignment: the external barycentre solver is assumed to keep uncorrelated groups uncorrelated, as the barycentre does."
  },
  {
   "property": "C245",
   "status": "partial",
   "theorems": [
    "C245_transport",
    "C245_transport_order",
    "C245_monge",
    "C245_coral_order",
    "C245_coral_refuted"
   ],
   "note": "REFUTED for CORAL with two or more features (witness with four sources and four targets: (0, 0) and (-1, 4) are moved into opposite directions), because the product of the two roots is not symmetric. Proved for the OT mapping, Monge alignment and CORAL with one feature."
  },
  {
   "property": "C246",
   "status": "partial",
   "theorems": [
    "C246_equal_steps",
    "C246_do_not_meet",
    "C246_default_refuted"
   ],
   "note": "REFUTED with the default plan sampling: with two sources and two targets alpha = 1 keeps all four pairs, also those the plan does not use, and two samples are at the same place after five of ten steps. Equal steps are proved for both samplings, the distances for the advanced one."
  },
  {
   "property": "C247",
   "status": "proved",
   "theorems": [
    "C247_quantiles",
    "C247_sorted",
    "C247_labels",
    "C247_numbers"
   ],
   "note": "Both forms proved: shares of the samples below and up to a value for any numbers of samples, equal ranks for equal numbers."
  }
 ]
}