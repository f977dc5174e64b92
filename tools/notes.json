{
"C01": "Arrays are lists of rows; the split equals the rows with label >= 0 / < 0, for every interleaving. A length mismatch is an IndexError (the consistency check in the code is ineffective).",
"C02": "Round trip on arrays with dtype and trailing shape, all layouts including one-sided ones.",
"C03": "REFUTED for mixed dtypes: with an integer source and a float target array the target values are truncated. Placement, counts and all rejections are proved; values are unchanged when the source array is float or both contain integers.",
"C04": "1-D labels, either side missing.",
"C05": "REFUTED for allow_multi_target: the code tests the number of sources, so several targets are accepted and several sources rejected; also check_X_y_domain accepts sample_domain of the wrong length. The exact acceptance condition is proved, and it is the documented one when allow_multi_target=True.",
"C06": "All label vectors; discrete and continuous.",
"C07": "All label vectors.",
"C08": "Real arithmetic. For max_iter = 0 the (infeasible) starting point is returned: C08_zero_iterations_infeasible.",
"C09": "Stated for every iteration of every run (trace of iterates), real arithmetic.",
"C10": "REFUTED in three ways: lb/ub are ignored; A x <= b is ignored when Aeq is given too; a negative lower bound gives negative x. Proved for one equality row, one inequality row and two opposite rows with non-negative bounds; for nearly opposite rows up to the allclose tolerance; rejections proved.",
"C100": "Proved for modules that act on each sample separately (the module is an oracle), reals instead of floats. Feature and allow_source variants other than these two are not modelled.",
"C101": "REFUTED for data with both kinds of samples and allow_source=False: predictions for targets are compared with labels of all samples, which raises ValueError. Proved: equal to the accuracy with allow_source, or with target samples only.",
"C102": "REFUTED: all samples get domain 0, a source domain, are dropped, and the concatenation of zero batches raises ValueError (proved for all inputs). Proved: with allow_source=True every sample is predicted.",
"C103": "REFUTED for assume_centered, which has no effect because torch.cov centres anyway (value proved for both settings, witness). The rest is proved.",
"C104": "REFUTED for 'Gaussian': the kernel has the distance, not its square, in the exponent; no bandwidth makes it Gaussian. Everything else is proved for the kernel used, including non-negativity, through a proof that exp(-|x-y|/sigma) is positive definite in every dimension (PDKernel.v).",
"C105": "REFUTED: (a) the kernel sums within a class pair class samples with all samples and the cross term is divided by the square of the number of pairs (witness); (b) the cosine similarity is reduced over the centroids instead of the features, so far samples are used (witness). Proved: the exact value the code computes (C105_value, an explicit formula over pairs of samples) and which target samples are kept; no valid class gives 0; a batch with a single class and one cluster divides by zero.",
"C106": "REFUTED with two target domains: numbers restart in each domain, so samples of different domains share a slot. Proved for a single target domain.",
"C107": "REFUTED for inertia_ of a run stopped by max_iter (the labels are older than the centres; witness). Proved: both half-steps and the whole run do not increase the objective, for unit samples whose cluster sums are zero or of norm at least 1e-8 (the clamp of cosine_similarity); inertia_ is right for a converged run; predict is scale-free above 1e-8.",
"C108": "REFUTED for labels other than 0..n-1 (classes dropped, or an exception). Proved for labels 0..n-1.",
"C109": "REFUTED: (a) the global generator is reseeded by every training batch when max_features is exceeded and an integer seed is given: its state afterwards is independent of its state before (proved for all states); (b) without a seed every batch gets another projection (witness). Multilinear map, widths and the fixed projection for a given seed are proved; the generator is an oracle.",
"C11": "Stated on the fit call of the Shared selector; discrete and continuous labels, arbitrary parameter dictionaries. A per-sample parameter passed as a Python list raises TypeError (proved). Infinite labels are dropped only when a NaN is present as well (otherwise label-kind detection rejects the vector).",
"C110": "Proved for every selection topk may return, when K entries outside the batch exist; with fewer an entry of the batch is used (proved too). The value of the loss is proved; over the reals.",
"C111": "REFUTED for shift='subspace' with label='multiclass': with odd n two samples of the second class carry label 0 (C111_subspace_mislabelled_refuted), with even n the four labels cut each of the two clusters in half (C111_subspace_split_refuted). Proved for the other shifts (C111_clusters: five clusters, five labels, with the affine maps) and for binary subspace labels.",
"C112": "Proved; the random draws are oracles, so 'proportional' is about the weights handed to rng.choice. Floating point rounding is not modelled; sigma=0 features are left at 0 by the standardisation of the code and excluded by hypothesis.",
"C113": "REFUTED for shift='subspace': no mean/sigma of either dimension is accepted, because both a 2-d and a 1-d density are evaluated with the same parameters (C113_subspace_refuted, ValueError). Proved for the other shifts (C113_labels); the density is an oracle.",
"C114": "Proved; make_blobs is the input, normal an oracle.",
"C115": "REFUTED at position 1: IndexError (C115_end_refuted). Proved for positions in [0,1): centres within pi/99 of the angle pi*pos on the two half circles, labels, sizes, domain numbers and names for all lists of positions (C115_centres, C115_layout).",
"C116": "REFUTED: the weights multiply time step j of all channels instead of channel j (C116_weights_refuted, for every linear inverse pair rfft/irfft). Proved: labels, sizes, ValueError above 15 frequencies. Filters and FFT are oracles.",
"C117": "REFUTED for SelectSourceTarget: predict is inherited with the check on base_estimator, an attribute it does not have, so it is never available (C117_source_target_predict_refuted); its other methods and all methods of the other selectors are proved. available_if is sklearn's (external): an exception in the check means 'no attribute'.",
"C118": "REFUTED: only (transformer, predictor) is rejected; (predictor, transformer) is accepted (C118_predictor_first_refuted).",
"C119": "REFUTED: score through PerDomain and SelectSourceTarget never returns, since merging asserts ndarray outputs (C119_per_domain_score_refuted, C119_source_target_score_refuted, for every input and all numeric scores). Proved for Shared: the call on the wrapped estimator has exactly the labelled samples.",
"C12": "REFUTED for outputs of different dtypes: the merged array takes the dtype of the first output, later values are cast. Placement is proved for every partition into integer or boolean indices, for arrays and for (X, y, params) containers.",
"C120": "REFUTED: mask_target_labels can neither be read nor set (C120_mask_not_a_parameter_refuted), and no parameter of SelectSourceTarget can (C120_source_target_refuted: AttributeError, also for clone). Proved for the other selectors: set-then-get, replacing the estimator, clone. Nested names (a__b): C229.",
"C121": "REFUTED for PerDomain (TypeError: _fit called without method_name, C121_per_domain_refuted) and SelectSourceTarget (AttributeError: routing_ is never set, C121_source_target_refuted), for every input. Proved for Shared under idempotent routing (no aliases).",
"C122": "REFUTED: when the final estimator has no such argument at all the adapter's output is dropped without an error (C122_adapter_output_dropped_refuted), and under SelectSourceTarget the report itself fails with AttributeError (C122_source_target_report_refuted). Proved: what a predictor receives, and both reports for the other selectors.",
"C123": "REFUTED for aliases: the value arrives under the alias name (C123_alias_refuted). Proved without aliases and None values.",
"C124": "REFUTED for PerDomain: every non-array value is indexed, TypeError (C124_per_domain_refuted: fit and prediction never return). Proved for SelectSourceTarget.",
"C125": "REFUTED in part: without n_components the number of components is min(n, n_features) over both domains together, so fitting raises ValueError as soon as one domain has fewer samples than features (witness 5+5 samples, 8 features); proved: exactly when the default works, and optimality of the alignment matrix given orthonormal PCA components.",
"C126": "REFUTED: eigh reads only the lower triangle of the non-symmetric solution of the linear system, so the returned direction is not optimal (witness with 3 samples, linear kernel, mu = 1, for every correct solver). Proved: with mu = 0 or no mean gap the components are kernel PCA's, each optimal among the directions orthogonal to the previous ones. solve/eigh/argsort by contract. C126_contracts_met shows the contracts can be met.",
"C127": "REFUTED for flda (the loss is the between-class share of the scatter, minimised) and lpp (the loss is minus the neighbour spread); proved for pca.",
"C128": "REFUTED in part: the three kernels have different bandwidths and no normalisation, so the value can be negative (witness: eight samples at 0 and one at 1 against eight at 0 and one at 7). Proved: symmetric in the domains and zero on identical domains. inv and cholesky by contract. C128_contracts_met shows the contracts can be met.",
"C129": "The optimiser (LBFGS) is arbitrary up to returning as many tensors as it got; QR by contract. C129_contract_met shows the contract can be met.",
"C13": "Two-run theorem for Shared and PerDomain, any wrapped estimator, any container. The premise that both label vectors have the same kind is shown to be needed.",
"C130": "LBFGS is an arbitrary function; the gradient compared with the tolerance is the one left by the optimiser's last evaluation.",
"C131": "REFUTED: NearestNeighborReweightAdapter builds its classifier in the constructor, set_params is ignored by fit (C131_nearest_ignores, witness C131_nearest_refuted); TransferSubspaceLearning and KMM check their arguments only in the constructor. Proved for the fifteen adapters that only store their arguments; a clone of the nearest-neighbour adapter uses the settings.",
"C132": "REFUTED: the extra keyword arguments of the JDOT estimators are lost by clone; a parameter set to None afterwards (density estimator, reg) makes clone raise RuntimeError. Proved for the storing adapters after any set_params and for freshly constructed instances of the checking ones. Nested estimators are identified with their clones.",
"C133": "REFUTED for DASVMClassifier, which accepts and drops any extra argument (C133_dasvm_drops: always). Proved for the adapters; missing required arguments raise TypeError for every class.",
"C134": "REFUTED: `x or default` takes the truth value of the estimator, which for an unfitted ensemble raises AttributeError. Proved for estimators without __len__, for None, and for JDOT and DASVM, which compare with None.",
"C135": "REFUTED for ClassRegularizerOTMapping (default argument created at import and shared: C135_class_reg_shared). Proved for the shorthands that create the default in the call.",
"C136": "Heap model of modules, hooks and cached activations; the user's network is an oracle producing a trace of named layer outputs. Proved for every history of constructions, copies, calls and training steps.",
"C137": "REFUTED: after a fit the cached activations are non-leaf tensors, deepcopy raises and the net cannot be cloned (C137_trained_refuted: always); the second fit and the clone start from the trained weights of the module (C137_refit_refuted, C137_clone_weights_refuted); a CDAN clone loses max_features and the seed (C137_cdan_refuted). Proved: before training a copy always succeeds, and it is independent.",
"C138": "REFUTED: prediction always passes sample_weight, so a network without this parameter can be trained but not used (C138_no_parameter_refuted); the CDAN module accepts no weights. Proved for networks with the parameter.",
"C139": "REFUTED for a base criterion other than CrossEntropyLoss, where 'auto' is the identity (C139_other_criterion_refuted). Proved for the cross entropy; the labels never depend on the choice.",
"C14": "REFUTED: masking writes -1/NaN into the caller's array. Exact content after fit proved; unchanged when masking is off, no sample_domain is given, or no target sample is present.",
"C140": "Proved for features computed row by row (network in evaluation mode).",
"C141": "Singular values are an oracle with the contract singular_values of AlignSpec.v. Rigid motion: the same pairwise distances.",
"C142": "REFUTED for a list of callbacks used for two nets: it is extended in place, and the epochs are counted twice (C142_list_refuted, for every list). Proved for None, one callback and a list used once.",
"C143": "REFUTED: TargetOnly cannot be trained with sample weights (C143_target_weights_refuted). Proved for training without weights: the loss is the base criterion on the own side only.",
"C144": "REFUTED for MDD without n_classes: TypeError instead of ValueError (C144_mdd_refuted). Proved for DANN, SPA and CDAN and for MDD with n_classes.",
"C145": "Gradients in the sense of Frechet; the chain rule is proved (C145_chain). That autograd computes products with Jacobians is the contract of torch.",
"C146": "Criterion and pseudo-label loss are inputs (the latter is C110).",
"C147": "REFUTED: the directory is created before the download, and only its existence is tested: after an interruption at any later step no call ever repairs the cache (C147_interrupted_refuted, for every history of later calls), Office-31 silently returns incomplete data with other labels (C147_silent_refuted), and a concurrent call sees the same (C147_concurrent_refuted). Proved for calls that are not interrupted.",
"C148": "Proved. listdir+sorted, loadmat and the random permutation are oracles with contracts (a reordering of the files; a permutation of the positions).",
"C149": "Proved; the csv file and the .mat files are lists of rows with labels.",
"C15": "Fit calls, routing at prediction time and rejection of unseen labels, for every layout.",
"C150": "REFUTED: rng.choice draws with replacement, so samples may be repeated and missing even for n_samples=1 (C150_all_refuted). Proved: number of rows, classes and labels, errors.",
"C151": "REFUTED: labels index the columns of an identity matrix, so labels other than 0..k-1 give the loss of another class or IndexError (C151_other_labels_refuted), float labels raise (C151_float_labels_refuted). Proved for integer labels 0..k-1.",
"C152": "REFUTED: the steps are called through transform without domain labels, so mapping adapters leave sources unmapped (C152_same_features_refuted), SelectSourceTarget uses the target step for every sample (C152_source_target_refuted) and PerDomain raises KeyError (C152_per_domain_refuted). Proved for steps that ignore domain labels.",
"C153": "Proved. The draws of the centres and the kernel are arbitrary; KFold is modelled. The shuffled index of lines 532-534 is never used by the code, so the folds follow the order of the samples.",
"C154": "REFUTED: on data other than those of fit the weight comes from the nearest sample in the feature space, not from the label, so equal labels may get different weights (C154_label_function_refuted). Proved: equal labels get equal fitted weights, bounds, nearest-neighbour rule.",
"C155": "REFUTED: with the default reg=\"auto\" assume_centered has no effect, the data are centred anyway (C155_assume_centered_refuted, for all data). Everything else proved. ledoit_wolf's intensity is an oracle in [0,1] of the centred entries; sklearn's scaler is modelled.",
"C156": "Proved; the density is an oracle that depends on the difference to the mean and the covariance, multiplied by a constant under a change of units (contracts of the multivariate normal).",
"C157": "REFUTED: JDOTRegressor.predict/score request allow_source through the metadata of their parent class but their signatures refuse it, so passing it through a pipeline raises TypeError (C157_allow_source_refuted); fit of both JDOT estimators returns None, so fit(...).predict(...) raises AttributeError (C157_chain_refuted). What holds: C157_domain_information, C157_direct, C157_chain (DASVM, gradual), C157_not_fitted, C157_weights_not_dropped.",
"C158": "REFUTED for weights: add_domain drops the weights of the dataset and of the added domain (C158_add_domain_weights_refuted). The views give the dataset back (C158_arrays, C158_dict, C158_repairs), add_domain adds exactly the samples whatever the form (C158_add_domain), domains/len are right.",
"C159": "REFUTED: add_weights and merge(out=False) assign the attributes before the assertion, so a refused call leaves a dataset whose length raises AssertionError (C159_refused_weights_refuted, C159_refused_merge_refuted). What holds for every history, failures included: rows, labels and domains stay aligned (C159_rows), remove_weights makes the dataset usable again (C159_recover), successful histories keep weights aligned (C159_successful), type errors change nothing.",
"C16": "REFUTED on every input with a target sample: rows are removed before the full sample_domain is used to index them, so fit raises IndexError. Proved: estimators that receive sample_domain, and transformers, are fitted once per domain with the labels of target domains masked.",
"C160": "REFUTED for LinearOTMapping: the default of reg is 1.0, documented (and used by the adapter class) as 1e-8 (C160_linear_default_refuted). All other arguments and defaults are passed on faithfully (C160_given, C160_defaults, C160_estimator), unknown names are refused, known ones accepted. OTLabelProp passes 0 where its adapter has None (both mean exact transport), excluded in C160_defaults.",
"C161": "All theorems quantify over keeps_roles renamings (InvSpec.v). Selectors: the routing oracle must be blind to values (name_blind); sst_fit needs a sample_domain to be known. Multi-domain components are C162.",
"C162": "Order must be kept by the splitters because numpy.unique sorts the labels and the random draws follow that order; C162_leave_one_out also needs f(-d) = -f(d) since the splitter tests -d.",
"C163": "Specification in OrderSpec.v (same_samples, same_values). KMM and MMDTarS are outside the statement (their optimisers may return different minimisers), as are kernel fit_transforms (C41_interleaved_refuted: TCA/TJM return sources first).",
"C164": "Values are real numbers; the graph alignment loss is C141_order. Deep JDOT needs the same of its OT solver and is not included.",
"C165": "Proved for all weights and sizes; the non-linearity of ToyModule2D acts on single entries.",
"C166": "REFUTED in four ways: DeepJDOT and SPA document a parameter reg they do not have (TypeError, C166_reg_refuted); a module given as a class is refused (C166_module_class_refuted); with a criterion given as a class no batch has a loss (C166_base_class_refuted, C166_domain_class_refuted); the layer name SourceOnly and TargetOnly ignore according to their documentation must exist (C166_layer_ignored_refuted). Proved: all documented names of the other methods and all but reg of these two, in every combination, with training options; refusal of unknown and missing names.",
"C167": "The losses of the methods are those of C67, C70, C71, C103-C105, C110, C141; the value of the pseudo-label loss of SPA and the fitted k-means of CAN are inputs.",
"C168": "REFUTED: with tensors and mask_target_labels=True the labels of the targets are returned in clear (C168_labels_visible_refuted, the dtype of a tensor is never one of the numpy types tested), a mask value makes the call raise TypeError unless arrays are asked for (C168_mask_value_refuted), arrays cannot be packed as tensors or DeepDADataset (C168_arrays_to_tensors_refuted), nor tensors without labels (C168_unlabelled_refuted). Proved: all return types without masking, and mask values with arrays or Bunch. Names are resolved as in DataModel; devices are not modelled.",
"C169": "REFUTED: the data set generators refuse the documented RandomState instance (C169_generated_instance_refuted), the default of random_state in the fetch functions is documented as 0 but is None, so a shuffled data set depends on numpy's generator (C169_fetch_default_refuted), and SphericalKMeans ignores its random_state, so two fits with the same integer differ (C169_clustering_ignores_seed_refuted, C169_clustering_refuted). Proved for the splitters, the subsampler, MixVal, DEV, KLIEP, SubspaceAlignment and shuffled loading. numpy's and torch's generators are arbitrary deterministic state machines; the reset of torch's global generator by CDAN is C109. LeaveOneDomainOut obtains its generator anew for each domain, so for it the claims on seeding before the call and on continuing are not made.",
"C17": "Both selectors, transformers and plain estimators, arbitrary parameter dictionaries.",
"C170": "REFUTED on training data: KMM without smoothing returns the optimised weights when given exactly the training sources and kernel-smoothed values for a part of them (C170_kmm_training_refuted), and TCA and TJM return the rows of their training data in another order when sources and targets are mixed (C170_kernel_training_refuted). Holds for all other data, and for the kernel methods on any data with the sources first. NearestNeighborReweight is left out: its weights count the targets of the call. The fitted transport of the OT mappings is assumed to map rows one by one.",
"C171": "REFUTED: the labels of Office-Home are strings, which pack never masks, so mask_target_labels=True changes nothing (C171_home_visible_refuted); those of Amazon reviews are floats, masked by NaN, so that the two classes count as values of a regression (C171_amazon_regression_refuted); fetch_amazon_review and fetch_office_home return a DomainAwareDataset instead of the documented Bunch (C171_container_refuted). Everything else is proved, including the masking of Office-31. str.lower is modelled on ASCII letters.",
"C172": "REFUTED: a metric name makes SupervisedScorer raise TypeError on every input (C172_string_supervised_refuted), and makes the other two fail as well because sample_domain is handed on to the metric (C172_string_refuted); a function with the documented signature scorer(estimator, X, y) never yields a score either (C172_function_refuted). None and functions that accept the extra keywords work as described, and so do the options.",
"C173": "The methods of an estimator other than fit only read it (trusted); random splits are inputs, so the claim is about equal draws.",
"C174": "Exact arithmetic. For any change of representation that keeps the kernel between two samples; C174_instances gives the rbf kernel, the distance and array equality under motions of R^d. The solvers get the kernel matrices; a solver looking at anything else is excluded by its type. The bandwidth chosen by gamma=\"scale\" does depend on the origin (X.var() is taken over all entries), so shifts need a bandwidth given as a number (C174_scale_sees_origin).",
"C175": "What a line computes is arbitrary; which attributes it reads and writes, on which branch and in which order, is transcribed from the source (HistModel). Excluded: a random_state that is a generator object (C169), parameters changed after __init__ derived an attribute from them (NearestNeighborReweightAdapter.base_estimator and _is_transformer of the selectors, see C131), base estimators whose own fit depends on earlier fits (warm_start). C175_ex_table shows that the same check rejects KLIEPReweightAdapter and GradualEstimator.",
"C176": "The base estimators and scorers are arbitrary, with the contract that renaming their training labels renames what they learn and predict. Not included because the classes are numbers or indices there: the label propagation of several domains (JCPOT) returns indices of classes (C53), MMDTarSReweightAdapter computes a kernel of the labels as numbers (_reweight.py 1257), and the deep losses use labels as indices.",
"C177": "The feature map of the theorems has finite dimension. C177_feature_map shows that the rbf kernel, the default, has one on every finite data set, and C177_rbf_scipy, C177_rbf_frank_wolfe and C177_rbf_mmdtars state the results for it without that hypothesis. The scipy solver is external: its contract is that it returns a minimiser among the points meeting the constraints it received; C177_kmm_solver_exists and C177_mmdtars_solver_exists show that for every data set some solver meets it. The frank-wolfe bound needs no contract; there B is not enforced (see C39) and the bound holds for all competing non-negative weights, also those above B. MMDTarS is modelled for class labels; its matrix inverse and its label kernel are arbitrary.",
"C178": "With a positive thr_weights (C178_threshold) the dropped weights are missing from the loss that the estimator minimises, so descent holds up to what they cost; there target weights are uniform. The estimator must predict rowwise; a regularised base estimator minimises another objective and is not covered. The scoring functions of the hinge metric must have one column per class, since a 1-D decision of a binary classifier is repeated in two columns (C88). C178_solver_exists: an exact transport solver exists, answering every problem with non-negative masses of equal sums.",
"C179": "When sample_domain is not given the domains are guessed from the masked labels, so the target labels matter there by design (C06). SupervisedScorer uses the target labels on purpose (C44).",
"C18": "Fit and prediction; plain estimators with discrete labels in C18_fit_each_side_plain.",
"C180": "Not included: the mapping adapters based on the transports of POT and GradualEstimator hand the target labels to POT, which uses those that are not -1 (semi-supervised transport, _mapping.py 61; see C93 for the gradual estimator); inside a pipeline these labels are masked (C13, C73). The other adapters receive no labels.",
"C181": "JDOTRegressor passes the target weights as they are to its base estimator, hence the condition.",
"C182": "Class labels of sources must not be -1 and continuous labels of sources must be finite, since those values mean masked (C11). A routed parameter that is a Python list with one entry per sample is excluded: indexing it fails (C11).",
"C183": "That the adapters themselves treat samples one by one is C170. Simplification: every step receives the same parameters (sample_domain).",
"C184": "The non-final fit_transform of SelectSourceTarget is outside: it never succeeds (C184_source_target_outside, see C121). Outcomes of computations, including exceptions, are arbitrary.",
"C185": "Contracts of POT's bures_wasserstein_barycenter: it returns a covariance; zero means give a zero mean; one domain is its own barycentre. The eigensolver is an oracle (MapModel).",
"C186": "REFUTED for CORAL's default reg=\"auto\": the intensity of Ledoit-Wolf depends on the number of samples, so sources and targets with equal covariances but different sample sizes are changed (C186_coral_auto_refuted). Proved for reg=None and every number, and for every reg when the two data sets are the same (C186_coral_reg); the other methods as stated. KMM: solver scipy, B >= 1, with a minimiser as in C177. OT label propagation: an exact plan for a cost that is zero only on equal rows, no sample weights, equal sources with equal labels.",
"C187": "REFUTED for CORAL's default reg=\"auto\", which shrinks towards the variances of the single features: sources with variances 1 and 9 and white targets, turned by a rotation, are not mapped to the turned images (C187_coral_auto_refuted, for every amount of shrinkage). Proved for reg=None and every number (C187_coral_number), and for the Monge alignment. Contract of POT's bures_wasserstein_barycenter (moves_along): the barycentre of moved Gaussians is the moved barycentre. The eigensolver is an oracle: only its contract is used, so it may choose other eigenvectors for the moved data.",
"C188": "At least as much: every flag that is on stays on, and allow_domains keeps its entries or is None.",
"C189": "Steps are Shared selectors whose fit_transform returns the rows of their fitted transform, which may depend on the domain of the sample.",
"C19": "Any sequence of step outputs.",
"C190": "The Ledoit-Wolf shrinkage (\"auto\") depends on the sample size and is excluded, as is the DeepCORAL loss, whose covariances divide by n - 1. For the scores both calls are assumed to succeed and all copies are tiled over both domains.",
"C191": "REFUTED: KMMReweightAdapter documents max_iter=100 but uses 1000, and the frank-wolfe solver of qp_solve does not start from ones. All other documented defaults (82 of them, over twenty classes) are proved, as are the estimators used when none is given.",
"C192": "Source labels 0, ..., n-1, each class being present on both sides (for other labels see C108); features and mean directions of norm at least 1e-8 (the clamp of cosine_similarity).",
"C193": "The solver is an oracle constrained to return an optimal coupling of the given masses (exact_plan, optimal_plan); POT's transform of the training samples is the barycentric one (barycentric). Finite numbers are exact.",
"C194": "REFUTED: the gradient step has the size of the rounding error of 64-bit floats (EPS = 2^-52, _reweight.py lines 35 and 513), so the iteration converges, by its own criterion, at the projection of the initial coefficients: for three sources at 0 and one at 2, one target at 0 and one at 2, all source weights are within 5% of 1 although weights 2/3 and 2 (the true ratio of the densities) are admissible and more likely by a factor of at least exp(1/5) (C194_likelihood_refuted). Proved: the iteration follows the gradient (C194_gradient) and obeys its stopping rule (C194_iterations).",
"C195": "REFUTED: the kernel is exp(-gamma |x - y|), the distance is not squared (_mapping.py lines 1054, 1078, 1079), so for two targets the function prefers a source on top of one of them to the middle, which the Gaussian kernel prefers (C195_gaussian_refuted); and the matrix regularised by reg_k is the kernel matrix of the source features, not of the labels, so sources of one class get different weights (C195_label_kernel_refuted). Proved: with the kernel and weights used, the function is the announced sum up to a term of the targets only (C195_objective), the regulariser vanishes exactly at the identity, classes have their own maps and the start is the identity. torch.linalg.inv is an oracle constrained to invert; numbers are exact reals.",
"C196": "REFUTED: test_time of MultiLinearMongeAlignmentAdapter and verbose of JCPOTLabelPropAdapter are never read (C196_test_time_refuted, C196_verbose_refuted), a new target domain is a KeyError whatever test_time is (C196_unseen_domain_refuted), and center and sigma_ch of two generators do nothing (C196_center_refuted, C196_sigma_ch_refuted; there the model's signature has the argument and its body, modelled from the code, does not). SphericalKMeans.random_state is C169. Proved for all other parameters: for some meaning of the lines the parameter makes a visible difference; that the real computations do is not claimed.",
"C197": "REFUTED for twelve parameters that methods read after fitting (the exact table read_later): assume_centered of CORALAdapter changes what a fitted adapter returns (C197_coral_refuted), and a kernel set on a fitted TCA or TJM is combined with the projection of the old kernel (C197_kernel_refuted). Proved for all others, for every meaning of the lines, every state and every sequence of calls (C197_waits, C197_until_fit).",
"C198": "REFUTED for CORAL with shrinkage, the default: with white sources and correlated targets the second alignment changes rows again, for reg=\"auto\" and for every number strictly between 0 and 1 (C198_coral_auto_refuted). Proved for CORAL with reg=None (empirical covariances), both centred modes, and for Monge with bias=True. The eigensolver and POT's barycentre are oracles with contracts: the barycentre is a covariance, is definite for definite inputs, and of equal Gaussians is that Gaussian.",
"C199": "Calls on the wrapped estimators are compared exactly: rows, labels and parameters. For SelectSourceTarget when fitting succeeds (it insists on both sides being present). For PerDomain under the condition that what reaches the estimator has one entry per sample; masked samples removed before the split are the misalignment of C16. SelectSource and SelectTarget without masking, as in SelectSourceTarget.",
"C20": "REFUTED for mixed names: a user-given name may equal a generated one. Every unnamed step's name is characterised exactly, for every default_selector; unnamed steps get pairwise distinct names whenever no base name contains a dash (class names never do).",
"C200": "CORAL with every reg (C200_coral_reg); Monge with one source and one target domain, each fit with its own domain labels. The eigensolver and POT's barycentre are oracles with contracts: the barycentre is a covariance, and of a single Gaussian is that Gaussian.",
"C201": "REFUTED as to the exact integer part: under_sampling=0.7 of 90 samples keeps 62, not 63, because 0.7 is rounded down. Everything else is proved: never more than n, n for 1, 0 for 0, monotone, and the count is the exact integer part of n times the stored fraction or one more when that product is within half a unit in the last place below an integer; target shift sizes can be drawn; the cut-off index of gradual adaptation exists. binary64 from Flocq, rounding to nearest even, no overflow.",
"C202": "Non-negativity and the range of the weights in binary64 with gradual underflow; the bounds on the constraint and the sum for any order preserving rounding with relative error u, in particular 53 bit precision without under- or overflow. C202_no_rounding: without rounding the program is the exact model of C08. Gradients are oracles.",
"C203": "REFUTED for the default of ten steps: the last intermediate sample for the target value 5/11 differs from it in the last place. Proved: the error is at most three roundings, and the last step is exact when the number of steps is a power of two.",
"C204": "REFUTED for new samples: with a Gaussian kernel fitted on the source sample 0 and the target sample 100, the weights of the source samples 0 and 70 are 0 and nan (C204_new_sample_refuted). Proved: finite and at most 2n (at most 1 for the score) when no log-ratio exceeds 300 (C204_density, C204_scorer), which holds for every peaked kernel at the samples the source density was fitted on (C204_kde); and C204_overflow says exactly which weights become nan once a log-ratio passes 1024. exp and log are correctly rounded, the log density is the rounding of the exact value.",
"C205": "REFUTED for temperatures below 1/1120: two equal certain predictions at temperature 1/2000 score nan (C205_temperature_refuted), and C205_nan: always, for at least two samples and temperatures between 2^-800 and 1/1120. Proved for temperatures of at least 1/100 (C205_number; the default is 0.05) and up to 2^20 samples. exp and log are correctly rounded.",
"C206": "The principal component analysis is an oracle: its component rows are orthonormal and, by default, as many as the features. For transfer subspace learning the final QR factor is orthogonal (qr_contract). C206_alignment_contracts shows which model definitions give these rows. C206_contract_met shows that some analysis meets the contract.",
"C207": "REFUTED for DiscriminatorReweightAdapter: with the exact probability p of being a target its weights are proportional to (1-p)/p, the density ratio upside down, so they move the average away from the target (sources 1,1,1,2, targets 1,2,2,2: 29/28 where the targets have 7/4 and the unweighted sources 5/4). Proved for density and Gaussian weights and for the scorer; C207_histogram shows that the histogram is an exact estimate. Distributions are empirical ones.",
"C208": "Proved over the reals for every correct symmetric eigensolver (C86_eigensolver_exists: there is one for every number of features). The values between the ends are described by C155. The intensity of Ledoit-Wolf is an oracle.",
"C209": "REFUTED for StratifiedDomainShuffleSplit: with one class, 2 targets, 18 sources and default sizes the request is accepted and no test part ever holds a target, whatever is drawn (C209_stratified_refuted). Proved for SourceTargetShuffleSplit, DomainShuffleSplit and LeaveOneDomainOut; for the stratified splitter, a (class, domain) group is represented in training when its share is at least one sample, and in the test part, for complementary sizes, when its share is more than one. scikit-learn's _approximate_mode is an oracle with the contract mode_of (FoldSpec), permutations are oracles.",
"C21": "REFUTED when a selector that is already final is passed directly as a step (two final steps). Proved for estimators, non-final selectors and nested pipelines in any order and number.",
"C210": "Proved over the reals; the transport solver is an oracle whose plan has the two marginals (coupling). Choosing one class per target does not keep the shares, as C210_hard_labels_ex shows; this is not claimed.",
"C211": "Proved over the reals. The transport solver and the estimator are deterministic oracles; for the comparison with OTLabelProp the solver returns the same plan when all costs are divided by their mean. For alpha=1 the mean distance is not zero (the code divides by it).",
"C212": "REFUTED for 16 of the 32 classes, each with a line that can raise after something was stored: the OT adapters replace the fitted transport before fitting the new one, CORAL and the Gaussian adapter store the new means before the covariance is estimated (which refuses, for example, an invalid reg), subspace alignment stores the new source components before fitting the target's, TCA, TJM, MMDTarS and MMDLSConS store the new data first, DASVM and the gradual estimator fit their parameter in place, KLIEP stores the bandwidth first. Proved for the other 16, which compute everything before storing it. What a line computes is arbitrary; the lines that only store a computed value are assumed not to raise (storing). Interruptions between two such lines are not considered.",
"C213": "Proved for SupervisedScorer and ImportanceWeightedScorer with the (weighted) accuracy, for PredictionEntropyScorer with exact log-probabilities, for MaNo with p >= 1, and for CircularValidation when the copy trained backwards returns the source labels. REFUTED for SoftNeighborhoodDensity: a model that gives all n targets the same probabilities gets at least ln(n-1), no model can get more than ln n, and with the default temperature the right model on two classes of two targets is ranked below it. REFUTED for MixVal: a constant answer always gets the best value 1, the right model on classes that are not convex gets less. REFUTED for DEV: the control variate makes the risk of a model that is wrong everywhere negative, below the zero of the right one. REFUTED for MaNo with the accepted values p < 1, which rank ignorance above certainty.",
"C214": "Proved for SphericalKMeans (max_iter, tol and the initialisations, together and separately), for KLIEP's list of bandwidths, for KMM with an exact solver (B and eps) and for JDOT (n_iter_max and tol; the longer run starts as the shorter one). REFUTED for KMM with solver='frank-wolfe' and max_iter: the step lengths are fixed and the last iterate is returned, so three iterations can be optimal and the fourth one worse (only the guaranteed bound of C78 improves).",
"C215": "Proved: with numbers as labels every source with a finite label is trained on, -1 included, and CircularValidation passes real-valued predictions on unchanged; with classes the training set is exactly the sources whose class is not -1. REFUTED for a class called -1 (the usual -1/+1 convention): its source samples are always dropped without a message, and without sample_domain they are declared targets. REFUTED for regression with whole-number source labels in CircularValidation: the backward copy is trained on the ranks of the predictions and any non-integer prediction of it raises ValueError.",
"C216": "Proved: propagated numbers follow every affine change of the labels; a JDOT run follows every change of the origin, and a change of unit by c if alpha is changed to the equivalent trade-off (the two runs then have the same plans and proportional losses and differ only in when they stop). REFUTED with the default alpha = 1/2: with two sources and three targets, labels 0 and 1 give the predictions 1, 1/2, 0, and the same labels in a unit twice as large give 3/8, 1/4, 1/8 instead of 1/2, 1/4, 0, for every exact solver, tolerance and number of iterations from two on. REFUTED for label propagation when the change makes all labels whole numbers: 0.5 and 1 are averaged, the same lengths written 1 and 2 are classes and the target gets 1.",
"C217": "Proved: leaving out sources of weight zero changes no label that label propagation gives to a target, for classes and for numbers. The loss of a deep batch is multiplied by the ratio of the numbers of source samples. REFUTED for JDOT: a third source of weight zero far from the targets changes the mean distance by which the distances are divided, and the predictions change from 3/8, 1/4, 1/8 to 1/2, 1/4, 0. REFUTED for deep models: losses 3 and 5 give 4, and 8/3 with a third sample of weight zero.",
"C218": "Proved, with the exact excess: another arrangement is farther by the sum of the quadratic forms of the inverse map at the differences, so the aligned rows are also the only closest ones. For comparison CORAL: least when the features are uncorrelated in both domains (C218_coral_uncorrelated), in general not: C218_coral_longer gives four sources and four targets for which rows with the same covariance lie strictly closer.",
"C219": "Proved for Monge alignment. For CORAL an equivalence: a row and its copy are adapted to the same point for all rows if and only if the stretch commutes with the covariance of the sources (C219_coral), hence always when all features are stretched alike and shifted in any way (C219_coral_alike). REFUTED for CORAL in general: sources with covariance [[5, 3], [3, 2]] and the first feature doubled in the target, for every shift and eigensolver.",
"C22": "REFUTED when the label-predicting step is already wrapped in a selector. Proved for every list of steps with respect to the plain estimators in it; selectors keep their own setting.",
"C220": "Proved for every bandwidth given as a number. REFUTED for KMM's default gamma=None, which is one over the number of features: fitted on the source 0, the source row 1 gets the weight exp(-1), and exp(-1/2) after a constant feature has been added, for every number of iterations (C220_default_bandwidth_refuted).",
"C221": "Proved for splitting and merging of two arrays of whole numbers, optimal-transport mapping, CORAL, subspace alignment, transfer subspace learning, MMDLSConS, circular validation, and packing without hidden labels or with a given mask. REFUTED for multi-domain Monge alignment (3 stored as an integer and mapped to 3/2 comes out as 1), for merging integer sources with fractional targets (the fractions are cut off) and for packing with hidden target labels (classes stored as floats are masked with NaN and the packed labels count as a regression target).",
"C222": "Proved for arrays of integers or floats whose labels fit in 32 bits, and for a single number. REFUTED for lists and tuples: every list the checks accept as an array raises TypeError (they index it with an array), and merging raises AttributeError. REFUTED for labels beyond 32 bits: every source domain numbered from 2^31 to 2^32 - 1 is taken for a target, and two domains whose numbers differ by 2^32 become one.",
"C223": "Proved for any number of plain estimators before, inside and after the nested pipeline and both default selectors when no step up to the end of the nested pipeline predicts target labels (step names: when no class occurs both inside and outside). REFUTED when a label-predicting step is inside the nested pipeline (the estimators after it are told to hide the predicted labels again) or before it (the nested estimators hide them), and for the names of classes that occur inside and outside.",
"C224": "Proved for label propagation, JDOTClassifier and JDOTRegressor (whose base estimator receives the target weights and must itself treat equal weights as none), and for deep models when the common weight is 1. REFUTED for deep models: a common weight of 2 doubles the base loss and not the adaptation loss, and with a criterion that returns one number weights of 1 are an error.",
"C225": "Proved over the reals: the temperature by Gibbs' inequality, the power by the power mean inequality (for rows that are probabilities, so for deep models when the normalisation is defined, C51), the threshold as a selection from the training set of the lower threshold, alpha for two fits that both succeed (ties can make a fit fail, C59).",
"C226": "REFUTED for the nearest-neighbour weights: two sources arbitrarily close together, one takes all the targets and the other none (C226_nearest_refuted). Proved with explicit constants for KLIEP and KMM (new samples, or smooth_weights) and the two kernel maps, 2 sqrt(gamma) times the sum of the absolute coefficients, and for CORAL and Monge alignment, the Frobenius norm of the linear part.",
"C227": "REFUTED: with the default train_split of skorch, and with every skorch ValidSplit, fit raises TypeError, because is_fit=True is passed on to the split (C227_default_split_refuted, C227_valid_split_refuted); the net must be built with train_split=None or a split that accepts all keywords. Proved: the exact number of samples left out by an epoch of each loader, that training steps on these batches only, and that a predefined validation set does not influence the parameters.",
"C228": "Proved for ImportanceWeightedScorer with any score that is a weighted average over samples, and, except for monotonicity, for DeepEmbeddedValidation with losses of one column and weights that are not all equal. REFUTED for DeepEmbeddedValidation: with the default loss a model whose loss is 2 on every sample gets risk 0 (C228_dev_default_refuted, from the broadcasting of C48); when all weights are equal, a loss of 1 gets risk 2 (C228_dev_equal_weights_refuted, eta is set to 0); the control variate can turn a larger loss into a smaller, even negative, risk (C228_dev_larger_refuted).",
"C229": "Proved for every path that does not end with base_estimator at a selector. REFUTED there (C229_base_estimator_refuted): when the estimator has a parameter base_estimator of its own (JDOTRegressor, JDOTClassifier, DASVMClassifier, GradualEstimator), step__base_estimator reads the estimator itself, setting it replaces the whole estimator, and None is not set at all. One key per set_params call; SelectSourceTarget is left out (it has no parameters, C120).",
"C23": "numpy data with 1-D labels; torch tensors not modelled. Domains registered with different numbers of rows and labels are not rejected (example).",
"C230": "DeepCORAL (each batch may even be shifted on its own), DAN with given or default bandwidths and DeepJDOT are proved. REFUTED for the contrastive discrepancy (C230_cdd_refuted): the confident target samples are selected feature by feature (C105), so that turning features and centroids together changes which samples are used; when the same samples are selected the loss is invariant (C230_cdd). The default bandwidths of DAN contain eps, the exact change of unit is stated for given bandwidths.",
"C231": "REFUTED for GaussianReweight (C231_gaussian_refuted): with every reg the covariance of a single sample is estimated by 0; fit accepts it and the weights are refused by scipy, with an error about a singular matrix. The rest is proved. The plans are couplings of the weights (contract of the transport solver), the eigensolver is correct, the covariance of the sources positive definite; scipy's density refuses covariances that are not positive definite.",
"C232": "REFUTED for CAN (C232_can_refuted): with one class and therefore one cluster the contrastive discrepancy divides the number 0 by 0, for all batches. The rest is proved; plans are couplings, the solution of MMDTarS meets its constraints. Whether the classifier given to JDOT can be fitted on one class is its own affair: the theorem is about every result.",
"C233": "REFUTED for JCPOT (C233_jcpot_refuted): it returns column numbers, so with source classes 5 and 7 the target labels are 0 and 1. Proved for the other methods. Contract: the classifier predicts a label it was fitted on.",
"C234": "Model of scikit-learn's grouping of the arguments by their first name and of the selector's own base_estimator argument. Paths that name base_estimator of a selector are those of C229; here they occur as the replacement only.",
"C235": "Proved. Random restarts of k-means and the choice of the KLIEP centres are inputs. Gradual adaptation is not a case of this: its number of steps divides the way and is no limit.",
"C236": "Proved for every run that raises nothing. The length of a data loader is torch's rule, the length of the sampler divided by the batch size and rounded up. LeaveOneDomainOut is asked with the domain labels of the data; without them it raises.",
"C237": "Proved, for merges that return a new data set (the default) of tensors that belong together, as every constructor gives them (C62). Merges in place leave stale sample numbers, see C98.",
"C238": "Proved. That POT moves a training sample to the barycentre of the targets under its plan is the contract of the transport; an iterative solver meets the marginals only up to its tolerance.",
"C239": "Proved. MixVal draws its permutation from the seed; the two evaluations are compared with the same draw, which has the same length because the targets are the same.",
"C24": "REFUTED for target labels whose dtype is neither int32/int64 nor float32/float64 (e.g. int8, bool): they are packed unmasked. Proved whenever a user mask is given or the first target domain has one of the four dtypes or no labels.",
"C240": "Proved. Hidden labels of plain predictors are not included: there fit fails (C16).",
"C241": "Proved in real arithmetic. That scipy's minimiser is exact when it returns is its contract. Upper bounds on single variables are not included: frank-wolfe ignores them (C10).",
"C242": "Proved in real arithmetic. For JDOT the estimator is an exact minimiser over a set of functions and the transport solver is exact (the contracts of C178). The case in which a solver or estimator raises is included: the exception is the same for all limits from some limit on.",
"C243": "REFUTED for KMM with solver='frank-wolfe' and few iterations (source 1, target 2/3, two iterations: distance 4/9 instead of 1/9; proved up to 16 kappa (1+e)^2/(max_iter+2)) and for CORAL with reg=1, which only matches the overall spread (witness with four samples). Proved for KMM with solver='scipy', subspace alignment, the OT mapping (transport cost between the domains), CORAL without shrinkage (distance 0), and CORAL with 0 < reg < 1 when the overall spreads agree.",
"C244": "Proved in real arithmetic. Monge alignment: the external barycentre solver is assumed to keep uncorrelated groups uncorrelated, as the barycentre does.",
"C245": "REFUTED for CORAL with two or more features (witness with four sources and four targets: (0, 0) and (-1, 4) are moved into opposite directions), because the product of the two roots is not symmetric. Proved for the OT mapping, Monge alignment and CORAL with one feature.",
"C246": "REFUTED with the default plan sampling: with two sources and two targets alpha = 1 keeps all four pairs, also those the plan does not use, and two samples are at the same place after five of ten steps. Equal steps are proved for both samplings, the distances for the advanced one.",
"C247": "Both forms proved: shares of the samples below and up to a value for any numbers of samples, equal ranks for equal numbers.",
"C25": "REFUTED: a generated name can overwrite a user-chosen one ('_2'), losing a domain silently; merge raises on X-only domains; a tuple of wrong length in the constructor repeats the previous domain. Proved for all call sequences in which no explicit name looks generated, and whenever the registered names are distinct.",
"C26": "Also through per_domain_split.",
"C27": "",
"C28": "Permutations drawn by the RNG are arbitrary permutations (inputs). sklearn's size validation is modelled; fractions are exact rationals instead of floats. C28_shuffle_split_succeeds gives the converse (valid sizes on both sides never raise).",
"C29": "Exact rationals instead of floats; None, int and fraction sizes in every combination.",
"C30": "Number of splits, held-out domain and disjointness for every RNG outcome. A domain labelled 0 cannot be held out: the split raises ValueError (C30_zero_domain_raises).",
"C31": "sklearn's _approximate_mode is an oracle constrained only by its contract (allocation bounded by group size, summing to the requested size).",
"C32": "RNG choices are arbitrary permutations; floor of exact rationals.",
"C33": "All three subsamplers; the splitter is an arbitrary function in the alignment theorem, and the real one in the distinctness theorems. train_size >= n returns the data unchanged (StratifiedDomainSubsampler fills in missing sample_domain).",
"C34": "Proved for the five adapters with the exact weight of every source row (density, Gaussian, discriminator, KLIEP, KMM), target weights zero; estimators, kernels, pdfs and exp are universally quantified.",
"C35": "REFUTED in floating point: the code's fallback for an all-zero mean gives 1/n (mean 1/n). With the real exponential (no underflow) the weights are non-negative with mean one.",
"C36": "REFUTED: the weight is (1-p)/p with p the estimated probability of being a target, so it decreases with target-likeness. Proved: the order is exactly reversed, weights non-negative with mean one.",
"C37": "Proved for every kernel, RNG draw, tolerance and max_iter >= 1.",
"C38": "REFUTED: X[~source_idx] on integer positions selects the mirrored rows, not the targets. Proved: the exact counts computed, and the documented counts for layouts in which sources and targets mirror each other.",
"C39": "REFUTED for the bound B (never passed to the frank-wolfe solver). Proved: non-negativity and the two-sided bound on the mean for every eps <= 1 and the default eps; negative eps rejected.",
"C40": "Proved for every transport that returns one float row per source row; fit is proved to give it exactly the source and target samples and labels. POT itself is an oracle.",
"C41": "REFUTED for TCA and TJM on interleaved training data: fit_transform returns the images of the sources, then those of the targets. Proved: SubspaceAlignment and TransferSubspaceLearning for every layout, TCA/TJM on any data other than the training data, on sources-first training data, and the exact order otherwise.",
"C42": "REFUTED: the first test divides by the negative initial value -2*tol, so for every tol > 0 exactly one iteration is run. Proved: stops after the first iteration are on a small relative change; tol < 0 uses the whole budget; max_iter = 0 raises UnboundLocalError.",
"C43": "REFUTED for integer X (mapped values are truncated when assigned into a copy of X). Proved for float X, with the KeyError, and what fit stores for each domain.",
"C44": "Proved for every scoring function; the estimator behind it is universally quantified.",
"C45": "Proved for every weight estimator and every non-negative exp (so also when it underflows to zero everywhere); the weights are the normalised ratios.",
"C46": "REFUTED for 'mean' (divided by the number of classes as well) and 'none' (a matrix, not one value per sample). Proved: bounds for 'sum', and the exact value of the two other reductions.",
"C47": "Proved for every probability estimator and temperature: entries of the similarity distribution, row sums, and the entropy bounds. Floating-point log(0) after underflow is not modelled.",
"C48": "REFUTED for one-dimensional losses such as the default: weights of shape (n,1) broadcast to an (n,n) product. Proved: the exact value returned, how weights are formed, and that (n,1)-shaped losses give the stated estimate.",
"C49": "REFUTED when a source domain is labelled 0 (its negation is still a source). Proved: everything the backward estimator is given, the role swap when no label is 0, and independence of the source labels.",
"C50": "Proved for every predictor, scorer, permutation argument and alpha.",
"C51": "Proved for p > 0 (other p raise); the Taylor normalisation under the condition that its row values are not all equal, the softmax always.",
"C52": "Proved for classification (ties go to the smallest class) and regression (masked rows are NaN, targets get the barycentre); the plan is an oracle. Labels are integers, resp. reals; check_X_y_domain and the choice of the branch (C06) are modelled elsewhere.",
"C53": "REFUTED twice: scores are computed domain by domain in increasing label order but written in sample order (target domains -1, -2 in this order exchange labels), and column numbers are returned instead of class labels. Proved when targets are sorted by domain label and classes are 0..K-1, and what is computed in general. JCPOT's plan is an oracle giving one score row per target sample.",
"C54": "Proved for both solvers with every OT solver, estimator and metric, including the exact costs, fitting labels and losses of each iteration; n_iter_max = 0 raises UnboundLocalError.",
"C55": "Proved for every rectangular label plan; an empty one raises ValueError.",
"C56": "REFUTED for k > 1 points per class: the mask of candidates is not updated between the k repetitions, so every repetition selects the same points and at most one point per class is added. The rest is proved for every mask, score matrix and condition. Decision values and base estimator are oracles; two classes, as in the code.",
"C57": "REFUTED: predict_proba uses base_estimator, which fit trained on the source samples only, while predict and decision_function use the final model base_estimator_ (witness with different probabilities; proved in general).",
"C58": "Proved for every plan, number of steps and mode; the plan and the base estimator are oracles, reals instead of floats.",
"C59": "REFUTED for ties: every pair at the threshold is kept, so a constant plan between ns and nt samples with ns + nt + 1 < ns nt makes fit raise IndexError with the default alpha. Proved: the number and choice of the pairs whenever fit succeeds, success for plans with pairwise different coefficients (alpha >= 0), and advanced mode without restriction.",
"C60": "Proved for every dataset, batch size, mode and every sequence of permutations drawn by the generator. When both sides are smaller than the batch size the loader yields no batch at all. Sampler plus the batching of the torch DataLoader with drop_last irrelevant (lengths are multiples); multiprocessing is not modelled.",
"C61": "Proved for every dataset, batch size and permutation.",
"C62": "Proved. Also proved: merging with keep_weights when only one side has weights is an assertion error. Tensors are lists of rows, dict inputs are modelled for the constructor only.",
"C63": "Proved for every base and adaptation criterion (oracles), with the exact value of the loss.",
"C64": "REFUTED: weights are restricted to sample_domain > 0 while losses are restricted to sample_domain >= 0. With source domain 0 (the default) and at least two source samples training raises; with domains 0 and 1 a wrong weight is used silently (witness). Proved: aligned when no domain is labelled 0; a reduced base loss is refused.",
"C65": "REFUTED: the update multiplies the stored rows by 1 - momentum and never adds the new features; proved for every history: entry i is its initial random value times (1-momentum)^(number of batches with i), and the content does not depend on any feature.",
"C66": "REFUTED: a softmax over the single default output is 1 for all parameters and inputs; the default adversarial loss is therefore the constant 100 (BCE clamps its logarithm at -100). With two outputs the classifier does separate.",
"C67": "Proved over the reals (in floating point a class whose probabilities all underflow to 0 gives nan). The value of the loss (weighted confusion) is proved too, for two or more classes.",
"C68": "Proved for any list of initial centroids (the random choices are inputs), together with what one run does and when it fails (max_iter = 0, no run).",
"C69": "REFUTED for the re-fit: CountEpochs resets its own counter, not the counter of the criterion which it increments, so a second fit continues the schedule and the pseudo-label weight reaches 2. The first fit is proved.",
"C70": "Proved for every criterion (oracle) and every emd2 (oracle, whose arguments are exhibited), with the default criterion identified as the cross entropy.",
"C71": "REFUTED: indexing [..., target] pairs every sample with every pseudo-label, so the loss averages over all pairs (proved for every batch); witness with two samples where it differs. Proved: right when all pseudo-labels of the batch agree. The MDD loss around it is proved too.",
"C72": "Proved for every generator that returns arrays of the requested shapes (rand, randn, choice, normal are oracles with this contract), every shift, label mode, noise and standardisation: sizes, alignment, domain labels; the call succeeds for the documented arguments; the number of class-0 target samples under target_shift (binary and multiclass) is floor(8 n ratio).",
"C73": "REFUTED: after a SelectTarget transformer, a later step with mask_target_labels=True is fitted on the true target labels, because labels stored in the container override the masked ones. Proved for pipelines of arbitrary selectors in which a masking Shared or PerDomain step comes first, or comes after SelectSource steps that return arrays.",
"C74": "REFUTED: mask_target_labels=False is lost by clone (C74_clone_reenables_masking_refuted), the final flag too (C74_clone_loses_final_refuted), and a SelectSourceTarget cannot be cloned at all (C74_source_target_clone_fails_refuted, AttributeError in get_params). Proved: selectors of the other classes with the default masking keep class, estimator and masking.",
"C75": "REFUTED: the inner pipeline's last step is unmarked in place. Proved: nothing but the final flag of the given selectors changes, other selectors not at all.",
"C76": "REFUTED when a name is used both as source and as target (as pack_lodo does): the table keeps only the target label. Proved for disjoint selections.",
"C77": "REFUTED for the return type: the default return_X_y=True overrides it. Contents proved for every dataset whose first domain has int/float labels.",
"C78": "REFUTED for a single inequality row (the solver minimises over A x = b). The O(1/k) rate and vanishing gap are proved for two-sided and equality constraints, any starting point (also infeasible), real arithmetic.",
"C79": "scipy's minimiser itself is external. A matrix without its right-hand side is outside the model.",
"C80": "REFUTED for lists containing 'scale'/'auto' (fit overwrites the gamma argument by numbers). Proved for single bandwidths and lists of numbers; the selected bandwidth maximises the likelihood.",
"C81": "Proved; the constraint bounds are conditional on the solver returning a point that meets the problem it was given.",
"C82": "REFUTED: _get_criterion calls _stable_softmax, which subtracts the row maximum from the logits in place, so the Taylor normalisation sees shifted logits. Proved: the softmax branch is unaffected.",
"C83": "REFUTED: logits (2, 0) become (0, -2), whose second-order Taylor values are equal. Proved: the normalisation gives probability vectors iff some logit differs from the largest by something other than 0 and 2, so with three or more distinct logits per row always.",
"C84": "REFUTED for interleaved layouts: the mask is in sample order, the projection rows are in the order sources, targets. Proved for sources-first layouts.",
"C85": "Proved over the reals for all sizes.",
"C86": "Proved over the reals for every correct symmetric eigensolver (np.linalg.eigh is an oracle); C86_eigensolver_exists proves that one exists for every number of features, so the assumption can be met. Shrinkage is the subject of C155 and C208.",
"C87": "Proved for the three branches; a label unseen in fit silently gets zero coefficients (C87_unseen_class). The optimiser is an oracle.",
"C88": "REFUTED for the hinge metric with a one-dimensional decision (every binary classifier): the decision is duplicated, so both classes have the same cost for every score. Proved for log-probabilities, probabilities and decisions with one column per class.",
"C89": "Proved over the reals.",
"C90": "Proved for any solver.",
"C91": "Proved: two solvers agreeing on such vectors give the same results.",
"C92": "Proved over the reals.",
"C93": "REFUTED at the interface: y[target] is passed to the transport method as yt, which may use it (a witness plan does; POT methods use labels other than -1). Proved: this is the only way target labels can matter.",
"C94": "REFUTED: max_iter of the base estimator is raised by 100 per step and never reset, so a second fit starts from the raised value and gives another classifier; a base_estimator of None is replaced by the default one. Proved: the exact value after fit.",
"C95": "REFUTED: once all targets have been added and keep their labels the decision array is one-dimensional and np.sum(.., axis=1) raises AxisError (witness with two source and two target samples). Proved: fit raises iff this situation is reached within max_iter iterations and succeeds otherwise; it cannot be reached when 2 (max_iter - 1) is smaller than the number of targets.",
"C96": "Proved for all iterations, with oracles for the base estimator.",
"C97": "Proved for every successful fit with a plan of the right shape.",
"C98": "REFUTED for merge(out=False): the sample numbers are not recomputed, so indexing past the old length raises IndexError and a loop silently stops there; the arrays are right and the old samples are unchanged. Proved for merge(out=True).",
"C99": "REFUTED for the documented integer sample_domain, which raises TypeError because len() is applied to it first (proved for all inputs); other defaults proved."
}
