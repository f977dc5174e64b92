{"id": "C01", "title": "source_target_split is an order-preserving partition", "statement": "source_target_split(a1..ak, sample_domain) returns, for every array, first exactly the rows whose domain label is >= 0 and then exactly the rows whose label is < 0, both in input order; row i of the j-th returned source (target) array comes from the same input row for all arrays; a None array yields (None, None); no array at all is a ValueError.", "quantifier": "every number of arrays, every length, every assignment of integer domain labels, every interleaving of sources and targets", "why_tests_cant": "Tests use sources-first layouts and a couple of sizes; alignment must hold for every interleaving and any number of arrays.", "anchors": ["skada/utils.py:source_target_split", "skada/utils.py:extract_source_indices"]}
{"id": "C02", "title": "split then merge is the identity", "statement": "Splitting non-empty arrays with source_target_split and passing the pieces back to source_target_merge with the same sample_domain returns the original arrays (and the same sample_domain), including when all samples are source or all are target.", "quantifier": "every non-empty array and label vector of the same length, every interleaving", "why_tests_cant": "A round-trip law over unboundedly many layouts; tests fix a few.", "anchors": ["skada/utils.py:source_target_split", "skada/utils.py:source_target_merge", "skada/utils.py:_merge_arrays"]}
{"id": "C03", "title": "merge puts each given row at its domain position and rejects miscounts", "statement": "When source_target_merge succeeds on a pair of non-empty arrays, the k-th source row is found at the k-th position whose label is >= 0 and the k-th target row at the k-th position whose label is < 0, nothing else appears, and the values are unchanged; if the number of source (target) rows differs from the number of non-negative (negative) labels it raises ValueError. An odd number of arrays, fewer than two arrays, or an empty pair is a ValueError.", "quantifier": "every pair of arrays of any lengths and dtypes, every label vector", "why_tests_cant": "Placement and rejection must be right for every count and layout; value preservation depends on dtype combinations tests never mix.", "anchors": ["skada/utils.py:source_target_merge", "skada/utils.py:_merge_arrays"]}
{"id": "C04", "title": "merge fills a missing side with the mask label", "statement": "If one 1-D label array of a pair is None or empty, source_target_merge returns labels in which every position of the missing side holds the mask (-1 when the given labels are discrete, NaN when they are continuous) and every other position holds the given label.", "quantifier": "every label vector (discrete or continuous), every domain layout with the right counts", "why_tests_cant": "The mask decides what downstream estimators train on; it has to be right for all label types and layouts.", "anchors": ["skada/utils.py:source_target_merge", "skada/_utils.py:_find_y_type"]}
{"id": "C05", "title": "check_X_domain accepts exactly the inputs its flags describe", "statement": "check_X_domain returns normally iff the data respects every flag: allow_source=False means no source label, allow_target=False no target label, allow_multi_source=False at most one distinct source label, allow_multi_target=False at most one distinct target label, allow_common_domain_idx=False no label used with both signs, allow_domains only listed labels (or the wildcard of their side); otherwise ValueError. check_X_y_domain obeys the same flags.", "quantifier": "all flag combinations, all label vectors", "why_tests_cant": "2^n flag combinations times unbounded label vectors; the suite checks a handful, none with multi-target.", "anchors": ["skada/utils.py:check_X_domain", "skada/utils.py:check_X_y_domain"]}
{"id": "C06", "title": "domain labels inferred from masked y", "statement": "check_X_y_domain without sample_domain labels a sample as target (-2) iff its label is masked (-1 for discrete y, NaN for continuous y) and as source (1) otherwise; it raises ValueError when y contains no mask, or a discrete label below -1. check_X_domain without sample_domain labels everything as target (-1). A scalar sample_domain is broadcast to all samples.", "quantifier": "every label vector", "why_tests_cant": "Quantifies over all label vectors and both label kinds.", "anchors": ["skada/utils.py:check_X_y_domain", "skada/utils.py:check_X_domain", "skada/_utils.py:_check_y_masking"]}
{"id": "C07", "title": "per-domain extraction partitions the samples", "statement": "extract_domains_indices returns one entry per distinct label; the index lists are increasing, pairwise disjoint, and together contain every sample index exactly once, each under its own label; with split_source_target the two dictionaries split them by sign. per_domain_split returns for each domain exactly the rows of that domain, in order, for every array.", "quantifier": "every label vector, any number of domains and arrays", "why_tests_cant": "Partition laws over arbitrary numbers of domains.", "anchors": ["skada/utils.py:extract_domains_indices", "skada/utils.py:per_domain_split"]}
{"id": "C08", "title": "frank_wolfe always returns a feasible point", "statement": "For a positive constraint vector c, 0 <= clb <= cub and at least one iteration, frank_wolfe returns x with x >= 0 and clb <= <c,x> <= cub, whatever the gradient oracle returns and whatever (even infeasible) x0 is given.", "quantifier": "every dimension, gradient oracle, c > 0, bounds, starting point and max_iter >= 1", "why_tests_cant": "Feasibility after every number of iterations and for every oracle; tests check convergence on one quadratic.", "anchors": ["skada/utils.py:frank_wolfe", "skada/utils.py:_qp_solve_frank_wolfe"]}
{"id": "C09", "title": "frank_wolfe steps toward a true linear minimiser", "statement": "At every iteration the vertex frank_wolfe moves to minimises <grad, v> among all v >= 0 with clb <= <c,v> <= cub.", "quantifier": "every gradient vector, c > 0, 0 <= clb <= cub, any competitor point", "why_tests_cant": "Optimality compares with infinitely many competitor points.", "anchors": ["skada/utils.py:frank_wolfe"]}
{"id": "C10", "title": "qp_solve(frank-wolfe) respects the documented constraints", "statement": "qp_solve with solver='frank-wolfe' either raises ValueError (unsupported constraint shapes, or no constraint, unknown solver) or returns x >= 0 satisfying A x <= b (one or two opposite rows) or Aeq x = beq. If bounds lb/ub are passed, the result respects them.", "quantifier": "every problem accepted by the validation, with positive constraint rows", "why_tests_cant": "The constraint set is checked nowhere at run time.", "anchors": ["skada/utils.py:qp_solve", "skada/utils.py:_qp_solve_frank_wolfe"]}
{"id": "C11", "title": "removing masked samples keeps rows aligned", "statement": "Before a plain estimator is fitted, exactly the samples whose label is masked (-1 for discrete labels; NaN/inf for continuous) are dropped; the surviving X rows, labels and every per-sample parameter stay aligned and in order; parameters that are not per-sample are untouched.", "quantifier": "every X, y, and parameter dictionary", "why_tests_cant": "Alignment over arbitrary mask patterns and parameter sets.", "anchors": ["skada/_utils.py:_remove_masked", "skada/_utils.py:_apply_domain_masks", "skada/base.py:BaseSelector._remove_masked"]}
{"id": "C12", "title": "per-domain outputs land on the rows they were computed from", "statement": "When per-domain outputs are merged back into a single array, output row i is the output of the domain of sample i for that sample; every row is written exactly once.", "quantifier": "every partition of the samples into domains, any domain order, array or (X, y, params) outputs", "why_tests_cant": "Scatter correctness over all partitions and interleavings.", "anchors": ["skada/_utils.py:_merge_domain_outputs"]}
{"id": "C13", "title": "target labels do not influence what a masked estimator is fitted on", "statement": "For a Shared selector with mask_target_labels=True (and sample_domain given), two label vectors that agree on source samples and have the same kind (discrete/continuous) lead to exactly the same call on the wrapped estimator: no information about target labels reaches it.", "quantifier": "every X, every pair of label vectors, every domain layout, any wrapped estimator", "why_tests_cant": "Non-interference is a statement about pairs of runs over all label values.", "anchors": ["skada/base.py:Shared._fit", "skada/base.py:BaseSelector._auto_mask_target_labels"]}
{"id": "C14", "title": "fitting does not modify the caller's labels", "statement": "After fit/fit_transform of a selector the label array object passed by the caller holds the same values as before.", "quantifier": "every label vector and domain layout", "why_tests_cant": "Aliasing effects are invisible unless every layout is considered; tests do not re-inspect y.", "anchors": ["skada/base.py:BaseSelector._auto_mask_target_labels", "skada/base.py:Shared.fit"]}
{"id": "C15", "title": "PerDomain routes every sample to its own domain's estimator", "statement": "After PerDomain.fit on transformers (or unmasked labels) there is exactly one fitted estimator per distinct label, fitted on exactly that domain's rows; predict/transform on any data whose labels were all seen returns, at row i, the output of the estimator of sample i's domain; an unseen label raises ValueError.", "quantifier": "every number of domains, every layout at fit and at predict time", "why_tests_cant": "Routing must be right for every interleaving, and the rejection for every unseen label.", "anchors": ["skada/base.py:PerDomain._fit", "skada/base.py:PerDomain._route_to_estimator"]}
{"id": "C16", "title": "PerDomain can be fitted with masked target labels", "statement": "PerDomain around a plain predictor with mask_target_labels=True fits one estimator per domain that still has labelled samples, on those samples.", "quantifier": "every X, y, sample_domain containing at least one target sample", "why_tests_cant": "Needs the combination of masking, row removal and per-domain indexing, for every layout.", "anchors": ["skada/base.py:PerDomain._fit", "skada/base.py:BaseSelector._remove_masked"]}
{"id": "C17", "title": "SelectSource / SelectTarget fit on exactly their side", "statement": "SelectSource (SelectTarget) passes to the wrapped estimator exactly the source (target) rows of X, y and per-sample parameters, aligned and in order; SelectTarget refuses mask_target_labels=True.", "quantifier": "every layout", "why_tests_cant": "All interleavings and parameter sets.", "anchors": ["skada/base.py:_BaseSelectDomain._pre_filter", "skada/base.py:SelectSource", "skada/base.py:SelectTarget"]}
{"id": "C18", "title": "SelectSourceTarget keeps two estimators apart", "statement": "SelectSourceTarget.fit raises ValueError unless both source and target samples are present; otherwise the source estimator sees exactly the source rows, the target estimator exactly the target rows, and transform / predict_proba return each row's output from the estimator of its side (either side may be absent at prediction time).", "quantifier": "every layout at fit and prediction time", "why_tests_cant": "All interleavings; one-sided prediction inputs.", "anchors": ["skada/base.py:SelectSourceTarget._fit", "skada/base.py:SelectSourceTarget._route_to_estimator"]}
{"id": "C19", "title": "metadata produced by a step overrides the caller's", "statement": "In a pipeline, parameters and labels produced by an earlier adapter replace the caller's parameters and labels of the same name for every later step, other parameters are forwarded unchanged, and array outputs change only the features.", "quantifier": "every sequence of adapter outputs", "why_tests_cant": "A history property: the container is threaded through arbitrarily many steps.", "anchors": ["skada/base.py:MetadataContainer.merge_in", "skada/base.py:MetadataContainer.merge_out"]}
{"id": "C20", "title": "auto-generated step names are unique", "statement": "make_da_pipeline gives pairwise distinct names to the steps the user did not name, and estimators whose class name occurs once keep it unchanged; repeated ones are numbered 1,2,3,... in pipeline order.", "quantifier": "every list of estimators", "why_tests_cant": "Uniqueness for any number of repeated classes.", "anchors": ["skada/_pipeline.py:_name_estimators", "skada/_pipeline.py:make_da_pipeline"]}
{"id": "C21", "title": "only the last step of a DA pipeline is final", "statement": "make_da_pipeline on non-selector estimators and nested DA pipelines returns a flat list of selectors in the given order (nested pipelines spliced in place, with prefixed names when the nested pipeline was named), exactly the last of which is marked final. An empty call is a TypeError.", "quantifier": "every list of steps, any nesting of DA pipelines", "why_tests_cant": "Splicing and finality for arbitrary nesting.", "anchors": ["skada/_pipeline.py:make_da_pipeline"]}
{"id": "C22", "title": "label masking is disabled from the first label-predicting step on", "statement": "In make_da_pipeline(mask_target_labels=True) every wrapped step before the first step that predicts target labels masks target labels, and that step and all later wrapped steps do not; steps that are already selectors keep their own setting.", "quantifier": "every list of steps", "why_tests_cant": "A fold over arbitrarily long pipelines.", "anchors": ["skada/_pipeline.py:_wrap_with_selectors"]}
{"id": "C23", "title": "pack encodes the role and identity of every domain in the label sign", "statement": "dataset.pack(as_sources, as_targets): the result concatenates the requested domains' rows in order, sources first; rows of the domain registered k-th carry +k when packed as source and -k when packed as target; X, y and sample_domain have the same length; an unknown name is a KeyError.", "quantifier": "every dataset whose domains have as many labels as rows, every pair of name lists (including a domain used both ways)", "why_tests_cant": "Arbitrary numbers of domains, sizes and orders.", "anchors": ["skada/datasets/_base.py:DomainAwareDataset.pack"]}
{"id": "C24", "title": "pack with mask_target_labels hides every target label", "statement": "With mask_target_labels=True no label of a target domain survives in y: all target rows hold one common mask value (the user's mask if given, else -1 for integer labels / NaN for float labels, decided by the first target domain), and source labels are unchanged; with False all labels are unchanged (X-only domains get -1).", "quantifier": "every dataset and selection, every mask", "why_tests_cant": "Leak-freedom over all datasets; the mask is threaded through the loop.", "anchors": ["skada/datasets/_base.py:DomainAwareDataset.pack"]}
{"id": "C25", "title": "domain names stay distinct and retrievable", "statement": "After any sequence of add_domain / merge calls that did not raise, each added domain is retrievable under its own name: get_domain(name) returns the data added under that name and the number of names equals the number of domains.", "quantifier": "every sequence of add_domain calls with or without explicit names", "why_tests_cant": "A history property; collisions between automatic and explicit names need particular sequences.", "anchors": ["skada/datasets/_base.py:DomainAwareDataset.add_domain", "skada/datasets/_base.py:DomainAwareDataset.get_domain", "skada/datasets/_base.py:DomainAwareDataset.merge"]}
{"id": "C26", "title": "packing and splitting round-trip", "statement": "Packing distinct domains as sources/targets (unmasked) and splitting the packed arrays per domain label gives back each domain's rows under its signed id.", "quantifier": "every dataset and selection of distinct names", "why_tests_cant": "Round-trip across two modules for arbitrary datasets.", "anchors": ["skada/datasets/_base.py:DomainAwareDataset.pack", "skada/utils.py:per_domain_split"]}
{"id": "C27", "title": "select_domain marks exactly the named domains", "statement": "select_domain returns a mask that is true at a position iff its label equals the id of one of the requested names; unknown names raise KeyError.", "quantifier": "every name table, label vector and list of names", "why_tests_cant": "All lists of names.", "anchors": ["skada/datasets/_base.py:select_domain"]}
{"id": "C28", "title": "SourceTargetShuffleSplit splits are disjoint and per-side exact", "statement": "Each (train, test) pair has no repeated index, train and test are disjoint and in range, and on each side (source and target separately) the numbers of train and test indices are the sizes computed from test_size/train_size for that side; with the default sizes train and test together cover all samples.", "quantifier": "every layout, every pair of permutations drawn by the RNG, any n_splits", "why_tests_cant": "Holds for every random state; tests sample some.", "anchors": ["skada/model_selection.py:SourceTargetShuffleSplit._iter_indices"]}
{"id": "C29", "title": "train/test sizes are valid", "statement": "The sizes used by the splitters are always positive for the training part, never exceed the number of samples in total, and equal ceil(test_size*n) / floor(train_size*n) for fractions; impossible requests raise ValueError.", "quantifier": "every n and every (test_size, train_size) pair", "why_tests_cant": "Rounding corner cases for all n.", "anchors": ["skada/model_selection.py:SourceTargetShuffleSplit._iter_indices", "sklearn _validate_shuffle_split (called)"]}
{"id": "C30", "title": "LeaveOneDomainOut never trains on the held-out domain as a source", "statement": "For each split there is one held-out domain d such that no returned train or test index is a source sample of d, every returned target sample belongs to d (label -d), every other source domain stays available, and train/test are disjoint; d ranges over distinct domains and the number of splits is min(max_n_splits, number of source domains).", "quantifier": "every label vector with domains given both as source and target, every RNG outcome", "why_tests_cant": "Leakage freedom for all layouts and RNG draws.", "anchors": ["skada/model_selection.py:LeaveOneDomainOut.split", "skada/model_selection.py:LeaveOneDomainOut.get_n_splits"]}
{"id": "C31", "title": "StratifiedDomainShuffleSplit preserves group counts", "statement": "Each split yields exactly n_train train and n_test test indices, all distinct and in range, and takes from every (label, domain) group exactly the number of samples allocated to that group by the allocation step; groups with fewer than two members and sizes below the number of groups raise ValueError.", "quantifier": "every label/domain vector, every allocation meeting its contract and every permutation", "why_tests_cant": "All group structures and RNG outcomes.", "anchors": ["skada/model_selection.py:StratifiedDomainShuffleSplit._iter_indices"]}
{"id": "C32", "title": "DomainShuffleSplit under-samples every domain by the same fraction", "statement": "Each split uses from each domain exactly floor(size*under_sampling) of its samples, train and test are disjoint, without repetition, in range; under_sampling outside [0,1] is rejected.", "quantifier": "every layout, every RNG outcome, every fraction", "why_tests_cant": "All layouts and RNG outcomes.", "anchors": ["skada/model_selection.py:DomainShuffleSplit._iter_indices"]}
{"id": "C33", "title": "subsamplers keep features, labels and parameters aligned", "statement": "Subsampler/DomainSubsampler/StratifiedDomainSubsampler.fit_transform return, for one and the same duplicate-free list of indices, the rows of X, y, sample_domain and sample_weight at those indices; when train_size >= n the data is returned unchanged; transform is the identity.", "quantifier": "every input and every index list drawn by the splitter", "why_tests_cant": "All RNG outcomes; alignment across four arrays.", "anchors": ["skada/transformers.py:Subsampler.fit_transform", "skada/transformers.py:DomainSubsampler.fit_transform", "skada/transformers.py:StratifiedDomainSubsampler.fit_transform"]}
{"id": "C34", "title": "reweighting gives weight only to source samples", "statement": "compute_weights of the density, Gaussian, discriminator, KLIEP and KMM adapters returns one weight per sample which is zero on every target sample, and the weight computed for the k-th source row at the k-th source position.", "quantifier": "every layout, every value of the underlying density/weight estimators", "why_tests_cant": "All interleavings; tests look at sums only.", "anchors": ["skada/_reweight.py:DensityReweightAdapter.compute_weights", "skada/_reweight.py:GaussianReweightAdapter.compute_weights", "skada/_reweight.py:DiscriminatorReweightAdapter.compute_weights", "skada/_reweight.py:KLIEPReweightAdapter.compute_weights", "skada/_reweight.py:KMMReweightAdapter.compute_weights"]}
{"id": "C35", "title": "density weights are non-negative with mean one on the sources", "statement": "DensityReweightAdapter.compute_weights returns non-negative weights whose mean over source samples is 1, for all density values.", "quantifier": "every layout and all real log-densities", "why_tests_cant": "Normalisation for all real inputs.", "anchors": ["skada/_reweight.py:DensityReweightAdapter.compute_weights"]}
{"id": "C36", "title": "discriminator weights grow with target-likeness", "statement": "With DiscriminatorReweightAdapter a source sample that the domain classifier considers more likely to be a target gets a weight at least as large as one considered less likely.", "quantifier": "every pair of source samples, all classifier probabilities", "why_tests_cant": "A monotonicity statement over all probability values; the suite only checks that weights exist.", "anchors": ["skada/_reweight.py:DiscriminatorReweightAdapter.fit", "skada/_reweight.py:DiscriminatorReweightAdapter.compute_weights"]}
{"id": "C37", "title": "KLIEP weights are non-negative and average to one on the sources", "statement": "After at least one iteration the KLIEP coefficients are non-negative and the mean over the source samples used in fit of the resulting weights is exactly 1 (real arithmetic), independently of tol, the stopping time and the kernel values.", "quantifier": "every kernel matrix with non-negative entries and a non-zero mean vector, every max_iter >= 1 and stopping time", "why_tests_cant": "Invariant of an iterative algorithm for any iteration count.", "anchors": ["skada/_reweight.py:KLIEPReweightAdapter._weights_optimization"]}
{"id": "C38", "title": "nearest-neighbour weights count target samples", "statement": "NearestNeighborReweightAdapter gives each source sample the number of target samples whose nearest source it is (plus 1 with Laplace smoothing), so the source weights sum to the number of target samples (plus the number of sources).", "quantifier": "every layout, every neighbour assignment", "why_tests_cant": "Counting identity over all layouts; tests never compare with the definition.", "anchors": ["skada/_reweight.py:NearestNeighborReweightAdapter.compute_weights", "skada/_reweight.py:NearestNeighborReweightAdapter._get_weights"]}
{"id": "C39", "title": "KMM weights respect the kernel-mean-matching constraints", "statement": "With the frank-wolfe solver the KMM source weights are non-negative, at most B, and their mean lies in [1-eps, 1+eps].", "quantifier": "every kernel, every B and eps in [0,1], every max_iter >= 1", "why_tests_cant": "Constraint satisfaction for all kernels and iteration counts.", "anchors": ["skada/_reweight.py:KMMReweightAdapter._weights_optimization", "skada/utils.py:frank_wolfe"]}
{"id": "C40", "title": "mapping adapters leave target samples in place and unmodified", "statement": "transform/fit_transform of OT mapping adapters return one row per input row, in input order: target rows are unchanged and the k-th source row is replaced by the mapped k-th source row.", "quantifier": "every layout, every transport map", "why_tests_cant": "All interleavings.", "anchors": ["skada/_mapping.py:BaseOTMappingAdapter.transform"]}
{"id": "C41", "title": "subspace adapters return rows in input order", "statement": "fit_transform of SubspaceAlignment, TransferComponentAnalysis and TransferJointMatching returns at row i the projection of sample i, for every layout of the sample domains.", "quantifier": "every interleaving of sources and targets", "why_tests_cant": "Tests use sources-first data, for which row order cannot be wrong.", "anchors": ["skada/_subspace.py:SubspaceAlignmentAdapter.transform", "skada/_subspace.py:TransferComponentAnalysisAdapter.transform", "skada/_subspace.py:TransferJointMatchingAdapter.transform"]}
{"id": "C42", "title": "TransferJointMatching iterates until convergence", "statement": "TransferJointMatchingAdapter.fit stops before max_iter only if the relative change between two consecutive objective values is below tol (or the previous objective is 0).", "quantifier": "every sequence of objective values, every max_iter and tol > 0", "why_tests_cant": "Stopping behaviour over all objective sequences.", "anchors": ["skada/_subspace.py:TransferJointMatchingAdapter.fit"]}
{"id": "C43", "title": "MultiLinearMonge applies each domain's own affine map", "statement": "MultiLinearMongeAlignmentAdapter.transform returns for each row its own domain's map applied to that row; a domain not seen in fit raises KeyError.", "quantifier": "every layout at fit and transform", "why_tests_cant": "All layouts and numbers of domains.", "anchors": ["skada/_mapping.py:MultiLinearMongeAlignmentAdapter.transform"]}
{"id": "C44", "title": "SupervisedScorer looks at target samples only", "statement": "SupervisedScorer evaluates the scoring function on exactly the target rows with their true labels in matching order, and returns the value with the sign of greater_is_better; source rows do not influence the score.", "quantifier": "every layout, any scoring function", "why_tests_cant": "Non-interference over all layouts.", "anchors": ["skada/metrics.py:SupervisedScorer._score"]}
{"id": "C45", "title": "importance weights form a distribution over the sources", "statement": "ImportanceWeightedScorer passes to the scoring function non-negative weights summing to 1, one per source sample, also when all estimated weights underflow to zero.", "quantifier": "all log-density values, every number of sources >= 1", "why_tests_cant": "Normalisation for all real inputs incl. the fallback branch.", "anchors": ["skada/metrics.py:ImportanceWeightedScorer._score"]}
{"id": "C46", "title": "prediction entropy is an entropy", "statement": "For probabilities with matching log-probabilities PredictionEntropyScorer(greater_is_better=True, reduction='sum') is between 0 and n*log(C); 'mean' is the average of the per-sample entropies and 'none' returns one entropy per sample.", "quantifier": "every probability matrix", "why_tests_cant": "Real-valued bounds for all inputs; reductions for all shapes.", "anchors": ["skada/metrics.py:PredictionEntropyScorer._score"]}
{"id": "C47", "title": "soft neighbourhood density is a mean of per-sample entropies", "statement": "SoftNeighborhoodDensity turns each target sample's similarities into a probability distribution (each row sums to 1) and returns the mean row entropy, which lies between 0 and log(n).", "quantifier": "every probability matrix and temperature", "why_tests_cant": "Normalisation axis cannot be seen from a score value.", "anchors": ["skada/metrics.py:SoftNeighborhoodDensity._score"]}
{"id": "C48", "title": "DEV computes the control-variate estimate", "statement": "DeepEmbeddedValidation returns mean(w*l) + eta*mean(w) - eta with eta = -cov(w*l, w)/var(w), where w_i*l_i is the weighted loss of validation sample i (eta = 0 if var(w) = 0).", "quantifier": "every weight and loss vector", "why_tests_cant": "The formula must hold for all vectors; tests check finiteness.", "anchors": ["skada/metrics.py:DeepEmbeddedValidation._score"]}
{"id": "C49", "title": "CircularValidation swaps the roles of all domains", "statement": "The backward estimator is fitted with every source sample as target (masked label) and every target sample as source (predicted label); no true source label reaches it.", "quantifier": "every layout and label vector, any estimator", "why_tests_cant": "All domain label values, including 0.", "anchors": ["skada/metrics.py:CircularValidation._score"]}
{"id": "C50", "title": "MixVal mixes and partitions consistently", "statement": "MixValScorer scores the mixed samples a*x_i+(1-a)*x_pi(i); intra and inter index sets partition the target samples by whether the predicted labels of the two mixed samples agree; the pseudo-label is that of the dominant component; the 'both' score is the mean of the available parts.", "quantifier": "every layout, permutation, alpha", "why_tests_cant": "All permutations.", "anchors": ["skada/metrics.py:MixValScorer._score"]}
{"id": "C51", "title": "MaNo score lies in [0,1]", "statement": "For row-stochastic probabilities MaNoScorer returns a score in [0,1] (times the sign); the logits-based normalisations give row-stochastic matrices whenever they are defined.", "quantifier": "every probability matrix, p >= 1", "why_tests_cant": "Bounds over all real matrices.", "anchors": ["skada/metrics.py:MaNoScorer._score", "skada/metrics.py:MaNoScorer._taylor_softmax", "skada/metrics.py:MaNoScorer._stable_softmax"]}
{"id": "C52", "title": "OTLabelProp masks sources and labels targets with source classes", "statement": "OTLabelPropAdapter.fit_transform returns labels in which every source row is masked and every target row holds a label occurring among the source labels (discrete case); target row k gets the class with the largest transported mass.", "quantifier": "every layout, every transport plan", "why_tests_cant": "All layouts and plans.", "anchors": ["skada/_ot.py:OTLabelPropAdapter.fit_transform"]}
{"id": "C53", "title": "JCPOT assigns each target sample its own label", "statement": "JCPOTLabelPropAdapter.fit_transform gives target sample i the class label propagated for sample i, for any number and interleaving of target domains and any label values.", "quantifier": "every layout with one or more target domains, every label alphabet", "why_tests_cant": "Needs interleaved multi-target layouts.", "anchors": ["skada/_ot.py:JCPOTLabelPropAdapter.fit_transform"]}
{"id": "C54", "title": "JDOT stops correctly and reports all losses", "statement": "solve_jdot_* performs at most n_iter_max iterations, records one OT loss and one label loss per iteration, stops at the first iteration i >= 1 at which one of the two losses changed by less than tol, and warns exactly when n_iter_max iterations were done without that happening.", "quantifier": "every sequence of losses, every n_iter_max >= 1 and tol", "why_tests_cant": "Stopping logic over all loss sequences.", "anchors": ["skada/_ot.py:solve_jdot_regression", "skada/_ot.py:solve_jdot_classification"]}
{"id": "C55", "title": "JDOT training data is the thresholded label plan", "statement": "get_data_jdot_class returns, in row-major order, exactly the triples (x_i, label_c, Yth[i,c]) whose weight exceeds thr_weights*max(Yth).", "quantifier": "every matrix, threshold", "why_tests_cant": "repeat/tile/flatten alignment for all shapes.", "anchors": ["skada/_ot.py:get_data_jdot_class"]}
{"id": "C56", "title": "DASVM candidate selection is sound", "statement": "One selection step of DASVMClassifier only adds points that satisfy the condition and were not selected before, adds at least one when some exist, never unselects a point, and picks the points with the best decision value per class; it adds up to k points per class.", "quantifier": "every decision matrix, selection state, condition and k", "why_tests_cant": "Index-compression logic over all masks.", "anchors": ["skada/_self_labeling.py:DASVMClassifier._find_points_next_step"]}
{"id": "C57", "title": "DASVM probabilities come from the adapted model", "statement": "predict_proba, predict and decision_function of a fitted DASVMClassifier all use the final target-trained model.", "quantifier": "every input, every base estimator", "why_tests_cant": "A property of object identity through fit.", "anchors": ["skada/_self_labeling.py:DASVMClassifier.predict_proba", "skada/_self_labeling.py:DASVMClassifier.predict"]}
{"id": "C58", "title": "gradual adaptation interpolates from source to target", "statement": "Every generated sample at step t is the convex combination ((n-t)/n) x_s + (t/n) x_t of a kept (source, target) pair, one per kept pair, and at the last step it is the target sample.", "quantifier": "every step count, plan mask and data", "why_tests_cant": "Interpolation identity over all data.", "anchors": ["skada/_gradual_da.py:GradualEstimator.generate_data_at_step"]}
{"id": "C59", "title": "gradual cut-off keeps the requested number of pairs", "statement": "The number of kept (source, target) pairs equals the number of rows allocated for intermediate data (min(alpha*(n+m), n*m-1)+1, or the number of row/column maxima in advanced mode), so generation never overflows; every source and every target occurs in a kept pair in advanced mode.", "quantifier": "every transport plan", "why_tests_cant": "Ties in the plan.", "anchors": ["skada/_gradual_da.py:GradualEstimator._cut_off_gamma", "skada/_gradual_da.py:GradualEstimator._advanced_cut_off_gamma"]}
{"id": "C60", "title": "domain-balanced batches are balanced", "statement": "DomainBalancedDataLoader yields batches each containing exactly batch_size source and batch_size target samples; the epoch length is 2*num_samples with num_samples determined by max_samples; over an epoch samples of one side are used equally often up to one.", "quantifier": "every dataset with both sides non-empty, batch size, max_samples mode and RNG outcome", "why_tests_cant": "All sizes and RNG draws, including restarts of the smaller side.", "anchors": ["skada/deep/base.py:DomainBalancedSampler", "skada/deep/base.py:DomainBalancedDataLoader"]}
{"id": "C61", "title": "domain-only batches contain one side without repetition", "statement": "DomainOnlyDataLoader yields only samples of the requested side, each at most once per epoch, in full batches.", "quantifier": "every dataset, batch size, RNG outcome", "why_tests_cant": "All sizes and RNG draws.", "anchors": ["skada/deep/base.py:DomainOnlySampler"]}
{"id": "C62", "title": "DeepDADataset selections and merges keep tensors aligned", "statement": "select_source/select_target/select_domain/select_with_labels/per_domain_split return exactly the matching rows of X, y, domain and weights, in order; merge concatenates; selecting source and target partitions the dataset; sample indices number the samples of each domain 0,1,2,...", "quantifier": "every dataset", "why_tests_cant": "All layouts and operation sequences.", "anchors": ["skada/deep/base.py:DeepDADataset"]}
{"id": "C63", "title": "the training loss never uses target labels", "statement": "DomainAwareCriterion (train_on_target=False) computes the same loss for any two label vectors that agree on source samples.", "quantifier": "every batch, any base and adaptation criterion", "why_tests_cant": "Non-interference over label values.", "anchors": ["skada/deep/base.py:DomainAwareCriterion.forward"]}
{"id": "C64", "title": "sample weights multiply the losses of the samples they belong to", "statement": "In DomainAwareNet.get_loss the weight vector is restricted to the same source samples as the per-sample base loss, so weight i multiplies the loss of sample i, for every set of domain labels.", "quantifier": "every batch and label vector (source labels >= 0)", "why_tests_cant": "Domain label 0 corner.", "anchors": ["skada/deep/base.py:DomainAwareNet.get_loss", "skada/deep/base.py:DomainAwareCriterion.forward"]}
{"id": "C65", "title": "the memory bank is a moving average", "statement": "MemoryBank.on_batch_end replaces, for each target sample of the batch, the stored feature m by (1-momentum)*m + momentum*f with f the new normalised feature, leaving other entries unchanged.", "quantifier": "every batch history", "why_tests_cant": "A history property over any number of batches.", "anchors": ["skada/deep/callbacks.py:MemoryBank.on_batch_end"]}
{"id": "C66", "title": "the default domain classifier can tell domains apart", "statement": "The output of the default DomainClassifier depends on its input: there are parameters and two inputs with different outputs.", "quantifier": "all parameter values and inputs", "why_tests_cant": "A for-all-parameters statement.", "anchors": ["skada/deep/modules.py:DomainClassifier"]}
{"id": "C67", "title": "minimum class confusion loss is bounded", "statement": "mcc_loss is in [0, 1) for every batch of logits.", "quantifier": "every logits matrix with at least one row and one class, any temperature", "why_tests_cant": "Real-analysis bound.", "anchors": ["skada/deep/losses.py:mcc_loss"]}
{"id": "C68", "title": "spherical k-means keeps the best run", "statement": "SphericalKMeans.fit returns the centroids, inertia and iteration count of the run with the smallest inertia among n_init (first one on ties), after at most max_iter iterations.", "quantifier": "every sequence of runs", "why_tests_cant": "Fold invariant.", "anchors": ["skada/deep/utils.py:SphericalKMeans.fit"]}
{"id": "C69", "title": "the SPA schedules stay in range", "statement": "In the first training run of max_epochs epochs the SPA adversarial and pseudo-label schedules are non-decreasing and in [0,1]; a re-fit restarts the schedule.", "quantifier": "every max_epochs >= 1 and epoch history", "why_tests_cant": "History property across fits.", "anchors": ["skada/deep/_graph_alignment.py:SPALoss._scheduler_adv", "skada/deep/_graph_alignment.py:SPALoss._scheduler_nap", "skada/deep/callbacks.py:CountEpochs"]}
{"id": "C70", "title": "DeepJDOT label cost pairs each source with each target", "statement": "Entry (i,j) of the label cost used by deepjdot_loss is the criterion between the label of source i and the prediction for target j, for equally sized source and target batches; unequal sizes are an error.", "quantifier": "every batch", "why_tests_cant": "Index bookkeeping of repeat/permute for all sizes.", "anchors": ["skada/deep/losses.py:deepjdot_loss"]}
{"id": "C71", "title": "MDD target loss compares each sample with its own pseudo-label", "statement": "ModifiedCrossEntropyLoss averages log(1 - p_i[label_i]) over the samples i.", "quantifier": "every batch", "why_tests_cant": "Indexing semantics for all sizes.", "anchors": ["skada/deep/_adversarial.py:ModifiedCrossEntropyLoss.forward"]}
{"id": "C72", "title": "generated datasets have matching features and labels", "statement": "make_shifted_datasets returns 8*n_samples rows per domain (4*n for 'subspace') with as many labels, for every shift and label mode; with target_shift and binary labels exactly floor(8*n*ratio) target samples are of class 0.", "quantifier": "every sample count, ratio, RNG outcome", "why_tests_cant": "All sizes incl. those not divisible by 4.", "anchors": ["skada/datasets/_samples_generator.py:make_shifted_datasets", "skada/datasets/_samples_generator.py:_generate_data_2d_classif", "skada/datasets/_samples_generator.py:_generate_data_2d_classif_subspace"]}
{"id": "C73", "title": "masking hides target labels in every step of a pipeline", "statement": "In a pipeline whose steps have mask_target_labels=True wherever allowed, two label vectors of the same kind that agree on source samples lead to exactly the same fit call on every estimator wrapped by a masking selector, whatever the earlier steps return.", "quantifier": "every sequence of steps, every X, every pair of label vectors, every domain layout", "why_tests_cant": "A non-interference property over pairs of runs and over arbitrarily long pipelines.", "anchors": ["skada/base.py:Shared._fit", "skada/base.py:MetadataContainer.merge_out", "skada/base.py:_BaseSelectDomain._pre_filter"]}
{"id": "C74", "title": "cloning a domain-aware pipeline keeps its behaviour", "statement": "sklearn.base.clone of a step built by make_da_pipeline (as done by cross-validation and grid search) behaves like the original: in particular it masks target labels exactly when the original does, and the clone of a pipeline has the same final step.", "quantifier": "every selector class, every mask_target_labels setting", "why_tests_cant": "Clones are made inside every cross-validation loop; the setting is dropped silently.", "anchors": ["skada/base.py:BaseSelector.get_params", "skada/base.py:BaseSelector.__init__"]}
{"id": "C75", "title": "building a pipeline does not alter the pipelines given as steps", "statement": "Passing a domain-aware pipeline as a step of make_da_pipeline leaves it unchanged: it can still be fitted and used with the same behaviour as before.", "quantifier": "every list of steps", "why_tests_cant": "Mutation of shared objects shows only when the inner pipeline is used afterwards.", "anchors": ["skada/_pipeline.py:make_da_pipeline", "skada/base.py:BaseSelector._unmark_as_final"]}
{"id": "C76", "title": "the name table returned by pack selects each domain's rows", "statement": "With return_type='Bunch', select_domain(bunch.domain_names, bunch.sample_domain, name) marks exactly the rows of the domain packed under that name, for every packed name.", "quantifier": "every dataset and selection of names", "why_tests_cant": "The table is a single dictionary filled by two loops; only some selections make entries collide.", "anchors": ["skada/datasets/_base.py:DomainAwareDataset.pack", "skada/datasets/_base.py:select_domain"]}
{"id": "C77", "title": "leave-one-domain-out packing contains every domain twice", "statement": "pack_lodo returns every domain's rows once as source with their labels and once as target with masked labels, in the requested return type.", "quantifier": "every dataset", "why_tests_cant": "Composition of two loops over all domains.", "anchors": ["skada/datasets/_base.py:DomainAwareDataset.pack_lodo"]}
{"id": "C78", "title": "qp_solve(frank-wolfe) converges to the constrained minimum", "statement": "For a symmetric positive semi-definite cost matrix the objective value returned by the frank-wolfe solver exceeds the minimum over the documented feasible set by at most 2C/(max_iter+2), where C bounds the curvature of the objective; hence for every tolerance there is a number of iterations after which every result is within the tolerance.", "quantifier": "every convex quadratic, constraint vector c > 0, bounds, starting point, number of iterations and every competitor point", "why_tests_cant": "a test can only compare a few problems with a reference optimum; the rate must hold against every feasible competitor and every problem", "anchors": ["skada/utils.py:qp_solve", "skada/utils.py:frank_wolfe", "skada/utils.py:_qp_solve_frank_wolfe"]}
{"id": "C79", "title": "qp_solve(scipy) hands over exactly the documented problem", "statement": "The constraints and bounds that qp_solve with solver='scipy' passes to the external minimiser are met by exactly those x with A x <= b, Aeq x = beq, lb <= x and x <= ub, for whichever of these arguments are given.", "quantifier": "every combination of given/omitted constraints and bounds, every x", "why_tests_cant": "whether a point is accepted must agree for every point and all 16 combinations of optional arguments", "anchors": ["skada/utils.py:qp_solve", "skada/utils.py:_qp_solve_scipy"]}
{"id": "C80", "title": "refitting a KLIEP adapter equals fitting a fresh one", "statement": "Calling fit again on a KLIEPReweightAdapter gives the same bandwidth as calling fit on a new adapter with the same constructor arguments; with a list of bandwidths the selected one maximises the cross-validated likelihood.", "quantifier": "every bandwidth argument, every two data sets, every likelihood function", "why_tests_cant": "History-dependent: needs two fits on different data and every bandwidth specification.", "anchors": ["skada/_reweight.py:KLIEPReweightAdapter.fit", "skada/_reweight.py:KLIEPReweightAdapter._auto_scale_gamma"]}
{"id": "C81", "title": "MMDTarS weights depend only on the class", "statement": "For classification the MMDTarS adapter gives a source sample the coefficient of its class (plus a constant 1e-13), target samples and unseen classes the constant only, and the fitted weights lie in [0, 10] with sum within m(1 +/- eps) whenever the solver returns a point meeting the constraints it was given.", "quantifier": "every data set, label assignment and solver result", "why_tests_cant": "Universally quantified over data, labels and solver outputs.", "anchors": ["skada/_reweight.py:MMDTarSReweightAdapter.fit", "skada/_reweight.py:MMDTarSReweightAdapter.compute_weights", "skada/_reweight.py:MMDTarSReweightAdapter._weights_optimization"]}
{"id": "C82", "title": "MaNo normalises the logits of the model", "statement": "The probabilities MaNoScorer aggregates are the chosen normalisation (softmax or Taylor) of the logits the model returned.", "quantifier": "every logit matrix and threshold", "why_tests_cant": "Depends on an aliasing effect between two helper calls; must hold for every logit matrix.", "anchors": ["skada/metrics.py:MaNoScorer._get_criterion", "skada/metrics.py:MaNoScorer._softrun", "skada/metrics.py:MaNoScorer._stable_softmax"]}
{"id": "C83", "title": "MaNo's normalisation never divides by zero", "statement": "For every logit matrix with at least two classes and distinct logits in each row, the normalisation used by MaNoScorer is well defined (no 0/0).", "quantifier": "every logit matrix with non-constant rows", "why_tests_cant": "Fails only on a measure-zero set of logits that random tests do not hit.", "anchors": ["skada/metrics.py:MaNoScorer._taylor_softmax"]}
{"id": "C84", "title": "TJM weights follow the samples", "statement": "In every iteration of TransferJointMatchingAdapter.fit the sparsity weight and the regulariser of a projection row are those of the kind (source or target) of the sample that row belongs to, for every layout of the sample domains.", "quantifier": "every interleaving of sources and targets, every projection", "why_tests_cant": "Tests use sources-first data, for which the mask and the kernel rows agree.", "anchors": ["skada/_subspace.py:TransferJointMatchingAdapter.fit"]}
{"id": "C85", "title": "MMD and centring matrices of TCA and TJM", "statement": "For every vector of projected values, the quadratic form of the MMD matrix is the squared distance between the source mean and the target mean, and that of the centring matrix is the total scatter.", "quantifier": "every number of source and target samples, every real vector", "why_tests_cant": "An identity over all sizes and all real vectors.", "anchors": ["skada/_subspace.py:TransferComponentAnalysisAdapter.fit", "skada/_subspace.py:TransferJointMatchingAdapter._get_mmd_matrix"]}
{"id": "C86", "title": "CORAL gives the sources the covariance of the targets", "statement": "Without shrinkage, the adapted training sources have mean zero and exactly the covariance of the training targets (second moments when assume_centered), targets are only centred, and rows stay in input order.", "quantifier": "every source and target sample with a non-degenerate source covariance, every layout", "why_tests_cant": "A matrix identity over all data sets and dimensions.", "anchors": ["skada/_mapping.py:CORALAdapter.fit", "skada/_mapping.py:CORALAdapter.transform", "skada/_mapping.py:_sqrtm", "skada/_mapping.py:_invsqrtm"]}
{"id": "C87", "title": "MMDLSConS maps each source with its own coefficients", "statement": "MMDLSConSMappingAdapter.transform leaves target rows unchanged and maps a source row with its own coefficients for the training sources, else with those of its class when labels are given, else with those of the nearest training source.", "quantifier": "every layout, every fitted coefficients, labels and data", "why_tests_cant": "All layouts and all three branches.", "anchors": ["skada/_mapping.py:MMDLSConSMappingAdapter.transform", "skada/_mapping.py:MMDLSConSMappingAdapter.fit"]}
{"id": "C88", "title": "JDOT label cost prefers the predicted class", "statement": "For every target sample, the label cost JDOT gives to a pair is strictly smaller for source samples of a class that the current estimator scores higher.", "quantifier": "every estimator output (log-probabilities, probabilities, decisions), every set of classes", "why_tests_cant": "All score matrices and class sets; tests only check that fitting runs.", "anchors": ["skada/_ot.py:get_jdot_class_cost_matrix"]}
{"id": "C89", "title": "transported regression labels stay in the range of the source labels", "statement": "With an exact plan, the labels OTLabelProp gives to targets and the labels on which JDOT regression fits its estimator are barycentres of source labels, hence never leave their range, in every iteration.", "quantifier": "every plan with the prescribed target marginal, all labels, all iterations", "why_tests_cant": "All plans and all iterations.", "anchors": ["skada/_ot.py:solve_jdot_regression", "skada/_ot.py:OTLabelPropAdapter.fit_transform"]}
{"id": "C90", "title": "JDOT never looks at target labels", "statement": "JDOTRegressor.fit and JDOTClassifier.fit use exactly the source samples, labels and weights and the target samples and weights: changing target labels changes nothing.", "quantifier": "every layout of domains, every label vector", "why_tests_cant": "Non-interference over all target labels.", "anchors": ["skada/_ot.py:JDOTRegressor.fit", "skada/_ot.py:JDOTClassifier.fit"]}
{"id": "C91", "title": "optimal-transport marginals are the normalised sample weights", "statement": "OTLabelProp and JDOT only solve transport problems between probability vectors, proportional to the given sample weights or uniform without weights.", "quantifier": "all weight vectors of non-zero total, all iterations", "why_tests_cant": "All weights and all calls of the solver.", "anchors": ["skada/_ot.py:OTLabelPropAdapter.fit_transform", "skada/_ot.py:solve_jdot_regression", "skada/_ot.py:solve_jdot_classification"]}
{"id": "C92", "title": "JDOT classification weights", "statement": "With an exact plan the weight of a target sample for a class is the number of targets times the mass it receives from the class; they add up to one per target for uniform targets; thresholding with thr_weights < 1 never drops the heaviest pair and only drops weights up to the threshold.", "quantifier": "every plan, class set and threshold", "why_tests_cant": "Identity over all plans.", "anchors": ["skada/_ot.py:solve_jdot_classification", "skada/_ot.py:get_data_jdot_class"]}
{"id": "C93", "title": "gradual adaptation ignores target labels", "statement": "The classifier fitted by GradualEstimator does not depend on the labels given for target samples.", "quantifier": "every data set, domain layout and transport method", "why_tests_cant": "Non-interference over all target labels.", "anchors": ["skada/_gradual_da.py:GradualEstimator.fit"]}
{"id": "C94", "title": "fitting a gradual estimator leaves its parameters alone", "statement": "GradualEstimator.fit does not change the hyper-parameters of the estimator or of its base estimator, so fitting twice on the same data gives the same classifier.", "quantifier": "every data set and every number of fits", "why_tests_cant": "A property of histories of fits.", "anchors": ["skada/_gradual_da.py:GradualEstimator.fit"]}
{"id": "C95", "title": "DASVM fit terminates without error", "statement": "DASVMClassifier.fit returns a fitted estimator after at most max_iter iterations for every binary data set on which its base estimator can be fitted.", "quantifier": "every data set, k, max_iter and base estimator", "why_tests_cant": "Depends on the points selected in every iteration.", "anchors": ["skada/_self_labeling.py:DASVMClassifier.fit"]}
{"id": "C96", "title": "DASVM only trains on remaining sources and pseudo-labelled targets", "statement": "Every classifier DASVM trains uses source samples with their own labels and target samples with the label given by the previous classifier; target labels passed by the user are not used, and the final classifier is trained on target samples with predicted labels.", "quantifier": "every data set, k, max_iter and base estimator; all iterations", "why_tests_cant": "Invariant over all iterations.", "anchors": ["skada/_self_labeling.py:DASVMClassifier.fit", "skada/_self_labeling.py:DASVMClassifier._get_X_y"]}
{"id": "C97", "title": "gradual adaptation is self-training along the interpolation", "statement": "The classifier of step t is trained on the intermediate data of step t labelled by the classifier of step t-1, starting from one trained on the labelled sources; predict uses the last one.", "quantifier": "every number of steps, plan and base estimator", "why_tests_cant": "Induction over the steps.", "anchors": ["skada/_gradual_da.py:GradualEstimator.fit", "skada/_gradual_da.py:GradualEstimator.predict"]}
{"id": "C98", "title": "a merged dataset gives all its samples", "statement": "After DeepDADataset.merge, in place or not, looping over the dataset (and loaders built from it) gives the samples of both datasets.", "quantifier": "every pair of datasets, weights kept or not", "why_tests_cant": "Quantifies over all pairs of datasets.", "anchors": ["skada/deep/base.py:DeepDADataset.merge", "skada/deep/base.py:DeepDADataset.__getitem__"]}
{"id": "C99", "title": "missing labels and domains get the documented defaults", "statement": "DeepDADataset gives samples without labels the label -1, samples without domain the domain 0 (or the single integer passed as sample_domain), and no weights.", "quantifier": "every data array", "why_tests_cant": "Quantifies over all arrays.", "anchors": ["skada/deep/base.py:DeepDADataset.__init__", "skada/deep/base.py:DeepDADataset._initialize"]}
{"id": "C100", "title": "predictions are one row per sample, whatever the batch size", "statement": "DomainAwareNet.predict_proba returns one row per target sample (per sample with allow_source) in input order, the same for every batch size, when the module treats samples independently.", "quantifier": "every dataset, batch size and module", "why_tests_cant": "Quantifies over all batch sizes and data.", "anchors": ["skada/deep/base.py:DomainAwareNet.predict_proba", "skada/deep/base.py:DomainAwareNet._prepare_input", "skada/deep/base.py:DomainAwareNet._process_dataset"]}
{"id": "C101", "title": "score is the accuracy on the scored samples", "statement": "DomainAwareNet.score returns the accuracy of predict on the samples it scores: the target samples, or all samples with allow_source.", "quantifier": "every dataset and module", "why_tests_cant": "Quantifies over all mixes of domains.", "anchors": ["skada/deep/base.py:DomainAwareNet.score"]}
{"id": "C102", "title": "predict works without domain labels", "statement": "DomainAwareNet.predict called without sample_domain predicts every sample given, treating them as target samples as the rest of the library does.", "quantifier": "every data array", "why_tests_cant": "Quantifies over all arrays.", "anchors": ["skada/deep/base.py:DomainAwareNet.predict", "skada/deep/base.py:DeepDADataset._initialize"]}
{"id": "C103", "title": "DeepCORAL compares covariances", "statement": "deepcoral_loss is the squared Frobenius distance of the two covariance matrices over 4 d^2: never negative, zero exactly when the covariances agree, unchanged when either side is translated; with assume_centered=True the data are not centred.", "quantifier": "every pair of batches with at least two samples each", "why_tests_cant": "Quantifies over all batches of real features.", "anchors": ["skada/deep/losses.py:deepcoral_loss"]}
{"id": "C104", "title": "the DAN loss is a discrepancy", "statement": "dan_loss is the squared maximum mean discrepancy for the multi-Gaussian kernel: never negative, zero on batches with the same samples, at most twice the number of kernels, symmetric for given bandwidths. The default bandwidths are 2^(i/2 - 8), i = 0..32, times the median distance between source samples.", "quantifier": "every pair of non-empty batches, every list of positive bandwidths, default bandwidths", "why_tests_cant": "Non-negativity needs positive definiteness of the kernel, a statement over all finite point sets.", "anchors": ["skada/deep/losses.py:dan_loss", "skada/deep/losses.py:_maximum_mean_discrepancy", "skada/deep/losses.py:_gaussian_kernel"]}
{"id": "C105", "title": "CDD is the contrastive discrepancy of the confident samples", "statement": "cdd_loss is the mean discrepancy within classes minus the mean discrepancy between classes, over target samples closer than distance_threshold to a centroid and classes with at least class_threshold of them.", "quantifier": "every batch, centroids and thresholds", "why_tests_cant": "Quantifies over all batches, clusterings and thresholds.", "anchors": ["skada/deep/losses.py:cdd_loss"]}
{"id": "C106", "title": "every target sample has its own slot in the memory bank", "statement": "The sample numbers of the target samples of a SPA training set are distinct and cover the slots of the memory bank.", "quantifier": "every list of domain labels", "why_tests_cant": "Quantifies over all multi-domain data sets.", "anchors": ["skada/deep/base.py:_infer_sample_idx", "skada/deep/callbacks.py:MemoryBank"]}
{"id": "C107", "title": "spherical k-means descends and reports its inertia", "statement": "No iteration of SphericalKMeans increases the sum of dissimilarities of the normalised samples; inertia_ is that sum for the returned centres; predict does not depend on the scale of the samples.", "quantifier": "every data set, initialisation, tolerance and number of iterations", "why_tests_cant": "An invariant of a loop of unbounded length over all real data.", "anchors": ["skada/deep/utils.py:SphericalKMeans"]}
{"id": "C108", "title": "source centroids are class sums", "statement": "At the start of each epoch CAN gets one centroid per source class: the sum of the normalised features of that class, in the order of the labels.", "quantifier": "every labelled source set", "why_tests_cant": "Quantifies over all label sets.", "anchors": ["skada/deep/callbacks.py:ComputeSourceCentroids"]}
{"id": "C109", "title": "CDAN conditions the discriminator on a fixed map", "statement": "The input of CDAN's domain classifier is the outer product of prediction and feature (flattened), or one fixed random projection of both with max_features entries when the product is larger; the same projection is used for all batches, and training leaves the global random generator alone.", "quantifier": "every batch, feature size, number of classes, seed and generator state", "why_tests_cant": "Quantifies over generator states and batch histories.", "anchors": ["skada/deep/_adversarial.py:CDANModule", "skada/deep/_adversarial.py:_RandomLayer", "skada/deep/utils.py:check_generator"]}
{"id": "C110", "title": "SPA pseudo-labels come from the nearest stored neighbours", "statement": "nap_loss labels every target sample with the class of largest mean stored output over its K nearest entries of the memory bank, entries of the batch itself excluded, and is the confidence-weighted mean cross entropy for these labels.", "quantifier": "every batch, bank and K", "why_tests_cant": "Quantifies over all banks and tie breaks of the neighbour search.", "anchors": ["skada/deep/losses.py:nap_loss"]}
{"id": "C111", "title": "class labels of the generated clusters name the clusters", "statement": "make_shifted_datasets draws one cluster of the first class in a disc mapped by a fixed affine map and Gaussian clusters of the second class around fixed means; with binary labels the second class is 1, with multiclass labels every cluster of the second class has its own label.", "quantifier": "every sample count, shift and outcome of the random generator", "why_tests_cant": "Quantifies over all sample counts and random outcomes.", "anchors": ["skada/datasets/_samples_generator.py:_generate_data_2d_classif", "skada/datasets/_samples_generator.py:_generate_data_2d_classif_subspace", "skada/datasets/_samples_generator.py:_generate_unif_circle"]}
{"id": "C112", "title": "each shift changes what its name says", "statement": "Covariate shift draws target samples without replacement with probability proportional to exp(-gamma*||x-center||^2); target shift resamples by class; conditional shift scales by sigma and translates by mean; subspace mirrors the target. Each target sample keeps its own label; noise and standardisation change features only, and a standardised data set has feature means 0 and variances 1 over both domains.", "quantifier": "every argument combination and random outcome", "why_tests_cant": "Quantifies over all random outcomes and real parameters.", "anchors": ["skada/datasets/_samples_generator.py:make_shifted_datasets"]}
{"id": "C113", "title": "regression labels are the density at the sample", "statement": "With label='regression' every label is the Gaussian density with the mean and sigma given by the user at that sample, for every shift.", "quantifier": "every mean, sigma, shift and sample count", "why_tests_cant": "Quantifies over all parameters and shifts.", "anchors": ["skada/datasets/_samples_generator.py:make_shifted_datasets", "skada/datasets/_samples_generator.py:_generate_data_2d_classif", "skada/datasets/_samples_generator.py:_generate_data_2d_classif_subspace"]}
{"id": "C114", "title": "shifted blobs are translated copies", "statement": "make_shifted_blobs without noise returns the blobs as source and the same samples, in the same order and with the same labels, translated by the shift (a number or a vector) as target; noise changes features only.", "quantifier": "every blob set, shift and noise", "why_tests_cant": "Quantifies over all real data and shifts.", "anchors": ["skada/datasets/_samples_generator.py:make_shifted_blobs"]}
{"id": "C115", "title": "moon positions place and number the domains", "statement": "make_dataset_from_moons_distribution creates one domain per position with 2n samples: n of class 0 around the point of the upper moon at that fraction of its arc, n of class 1 around that of the lower moon; sources are numbered first, then targets. Every position from 0 to 1 is accepted.", "quantifier": "every list of positions in [0, 1], sample count, noise and random outcome", "why_tests_cant": "Quantifies over all position lists and real positions.", "anchors": ["skada/datasets/_samples_generator.py:make_dataset_from_moons_distribution", "skada/datasets/_samples_generator.py:_generate_data_from_moons"]}
{"id": "C116", "title": "signals are weighted per channel", "statement": "make_variable_frequency_dataset returns n signals per class and domain, labelled by the class in order, the target with shifted frequencies; in a signal, channel j is multiplied by the j-th channel weight.", "quantifier": "every number of samples, classes, channels, frequencies and random outcome", "why_tests_cant": "Quantifies over all sizes, weights and signals.", "anchors": ["skada/datasets/_samples_generator.py:make_variable_frequency_dataset", "skada/datasets/_samples_generator.py:_generate_signal_with_peak_frequency"]}
{"id": "C117", "title": "a selector offers the methods of the estimator it wraps", "statement": "A selector (Shared, PerDomain, SelectSource, SelectTarget, SelectSourceTarget) has transform, fit_transform, predict, predict_proba, predict_log_proba, decision_function and score exactly when the wrapped (source) estimator has them, before and after fitting.", "quantifier": "every selector class, every wrapped estimator (set of methods), every set of domain labels seen in fit", "why_tests_cant": "Quantifies over all estimators and fitted domain sets; a missing method shows only when that exact combination is used as the last step.", "anchors": ["skada/base.py:_estimator_has", "skada/base.py:BaseSelector", "skada/base.py:SelectSourceTarget"]}
{"id": "C118", "title": "SelectSourceTarget refuses a mixture of transformer and predictor", "statement": "SelectSourceTarget raises TypeError when one of its two estimators is a transformer and the other is not, accepts two of a kind or a single one for both sides, and refuses mask_target_labels=True.", "quantifier": "every pair of estimators", "why_tests_cant": "Quantifies over all pairs; tests check one order.", "anchors": ["skada/base.py:SelectSourceTarget.__init__"]}
{"id": "C119", "title": "score of a selector is the score of what it wraps", "statement": "score(X, y) on a fitted selector returns a number: for Shared and its subclasses the score of the wrapped predictor on exactly the labelled samples; for PerDomain and SelectSourceTarget a number computed from the scores of the estimators of each domain.", "quantifier": "every data set, labels, domain labels and scoring method", "why_tests_cant": "Quantifies over all estimators, data and scores.", "anchors": ["skada/base.py:BaseSelector.score", "skada/base.py:Shared._route_to_estimator", "skada/base.py:PerDomain._route_to_estimator", "skada/base.py:SelectSourceTarget._route_to_estimator", "skada/_utils.py:_merge_domain_outputs"]}
{"id": "C120", "title": "selector parameters can be read, set and cloned", "statement": "get_params of a selector shows the parameters of the wrapped estimator and its own constructor arguments; set_params changes exactly the named ones (unknown names: ValueError); a clone has the same parameters. This holds for each selector class, so grid search and cross-validation work on every step.", "quantifier": "every selector class, every wrapped estimator, every parameter name and value", "why_tests_cant": "Quantifies over all parameter sets; cloning happens silently inside model selection.", "anchors": ["skada/base.py:BaseSelector.get_params", "skada/base.py:BaseSelector.set_params", "skada/base.py:SelectSourceTarget.get_params", "skada/base.py:SelectSourceTarget.set_params"]}
{"id": "C121", "title": "fit_transform works for transformers that define only fit and transform", "statement": "For a wrapped estimator with fit and transform but no fit_transform, fit_transform of the selector is fit followed by transform on the same samples, keeping labels and metadata.", "quantifier": "every selector class, every such estimator, every input", "why_tests_cant": "The branch is taken only for estimators without TransformerMixin; quantifies over all of them.", "anchors": ["skada/base.py:Shared.fit_transform", "skada/base.py:PerDomain.fit_transform", "skada/base.py:SelectSourceTarget.fit_transform"]}
{"id": "C122", "title": "adapter output is never ignored silently by the final estimator", "statement": "The final step, and every predictor, receives each parameter it requests under its own name and no other; a parameter produced by an adapter (such as sample_weight) that the estimator neither requests nor refuses raises IncompatibleMetadataError, and one given by the user raises sklearn's UnsetMetadataPassedError.", "quantifier": "every set of metadata requests, every adapter output, every keyword argument, every selector", "why_tests_cant": "Quantifies over all request configurations and parameter sets.", "anchors": ["skada/base.py:BaseSelector._prepare_routing", "skada/base.py:IncompatibleMetadataError", "skada/base.py:SelectSourceTarget._fit"]}
{"id": "C123", "title": "inner transformers receive metadata like final ones", "statement": "A transformer inside the pipeline receives the parameters it requests, under its own argument names (aliases included), like the final step would; parameters it does not request are left out without an error.", "quantifier": "every set of requests and parameters", "why_tests_cant": "Quantifies over all request configurations.", "anchors": ["skada/base.py:BaseSelector._prepare_routing"]}
{"id": "C124", "title": "flags and numbers reach the per-domain estimators", "statement": "A keyword parameter that is not an array (such as allow_source=True) requested by the wrapped estimator is passed unchanged by every selector.", "quantifier": "every parameter set, data set and selector", "why_tests_cant": "Quantifies over all parameters and domain layouts.", "anchors": ["skada/base.py:PerDomain._fit", "skada/base.py:PerDomain._route_to_estimator", "skada/_utils.py:_apply_domain_masks"]}
{"id": "C125", "title": "Subspace alignment picks a workable number of components and the closest alignment", "statement": "A fitted subspace alignment maps the source principal basis onto the target principal basis with the matrix that brings it closest (in Frobenius norm) among all matrices of that size. When n_components is left unset the adapter chooses as many components as the data allow, so fitting succeeds on any source/target data.", "quantifier": "every number of samples per domain, every number of features, every data set, every n_components", "why_tests_cant": "Tests fit a few well-shaped data sets; optimality over all matrices and the behaviour for every combination of sizes (fewer samples than features) cannot be enumerated.", "anchors": ["skada/_subspace.py:SubspaceAlignmentAdapter.fit"]}
{"id": "C126", "title": "Transfer component analysis returns the solution of its optimisation problem", "statement": "The first component learned by TransferComponentAnalysisAdapter maximises the scatter of the projected samples relative to the norm of the coefficients plus mu times the squared gap between the projected domain means; when there is no gap to penalise the components are those of kernel PCA in decreasing order of scatter.", "quantifier": "every kernel matrix, every mu >= 0, every number of samples and components", "why_tests_cant": "Optimality over all directions is not observable from output shapes or downstream accuracy, which is what the tests look at.", "anchors": ["skada/_subspace.py:TransferComponentAnalysisAdapter.fit"]}
{"id": "C127", "title": "Transfer subspace learning minimises the loss of the chosen base method", "statement": "TransferSubspaceLearning prefers, among orthonormal projections: for 'pca' those of larger projected variance; for 'flda' those where samples are close to their class mean compared with the distance between classes; for 'lpp' those that keep neighbouring samples of one class close.", "quantifier": "every data set, labels, number of components, regularisation and length scale", "why_tests_cant": "A wrong sign or a swapped scatter matrix still yields an orthonormal projection of the right shape; only a comparison over all projections shows it.", "anchors": ["skada/_subspace.py:TransferSubspaceLearningAdapter._F", "skada/_subspace.py:TransferSubspaceLearningAdapter._torch_cov"]}
{"id": "C128", "title": "The domain discrepancy of transfer subspace learning is a discrepancy", "statement": "The domain term minimised by TransferSubspaceLearning does not depend on which domain is called source, is zero when both domains are the same samples, and is never smaller for different domains than for identical ones.", "quantifier": "every pair of data sets, projections, sizes and regularisations", "why_tests_cant": "Tests run the optimiser on one data set and check shapes.", "anchors": ["skada/_subspace.py:TransferSubspaceLearningAdapter._D"]}
{"id": "C129", "title": "Transfer subspace learning validates its arguments and returns an orthonormal projection", "statement": "The constructor accepts exactly the three base methods and reg None or in [0, 1], raising ValueError otherwise; whatever the optimiser returns, the fitted projection has orthonormal columns, min(n_components, n_features) of them, and the objective is only evaluated at orthonormal projections.", "quantifier": "every argument combination, every optimiser outcome, every data set size", "why_tests_cant": "The optimiser's outcome depends on floating point trajectories; tests see a handful of them.", "anchors": ["skada/_subspace.py:TransferSubspaceLearningAdapter.__init__", "skada/_subspace.py:TransferSubspaceLearningAdapter.fit"]}
{"id": "C130", "title": "torch_minimize reports the loss of the point it returns", "statement": "torch_minimize returns a solution of the same kind as its start (an array for an array, a list for a list of several arrays), the value of the loss at exactly that solution, and warns exactly when the final gradient is above the tolerance.", "quantifier": "every loss, start, tolerance and optimiser trajectory", "why_tests_cant": "Tests minimise one quadratic that converges.", "anchors": ["skada/utils.py:torch_minimize"]}
{"id": "C131", "title": "set_params and the constructor agree", "statement": "For every adapter, calling set_params (any number of times) on an instance has the same effect on later fits as constructing the adapter with these parameters: the values set are the ones fit uses, values the constructor refuses are refused, unknown names raise ValueError.", "quantifier": "every adapter, every constructor call, every sequence of set_params", "why_tests_cant": "A grid search goes through set_params for arbitrary values; tests construct adapters with a few literals.", "anchors": ["skada/_reweight.py:NearestNeighborReweightAdapter.__init__", "skada/_reweight.py:KMMReweightAdapter.__init__", "skada/_subspace.py:TransferSubspaceLearningAdapter.__init__", "skada/_mapping.py:OTMappingAdapter.__init__"]}
{"id": "C132", "title": "clone copies the whole configuration", "statement": "sklearn.clone of an adapter or estimator succeeds and gives an unfitted object with the same configuration, whatever constructor arguments it was given and whatever was set afterwards; selectors clone what they wrap, so a pipeline relies on it.", "quantifier": "every estimator, every constructor call, every sequence of set_params", "why_tests_cant": "Tests clone default instances; the configuration lost or refused depends on which arguments were given.", "anchors": ["skada/_ot.py:JDOTRegressor.__init__", "skada/_ot.py:JDOTClassifier.__init__", "skada/_reweight.py:DensityReweightAdapter.__init__", "skada/_reweight.py:DiscriminatorReweightAdapter.__init__", "skada/_subspace.py:TransferSubspaceLearningAdapter.__init__"]}
{"id": "C133", "title": "Misspelt constructor arguments are refused", "statement": "Giving a constructor an argument it has no parameter for raises TypeError, and so does leaving out a required one; no option is silently ignored.", "quantifier": "every estimator, every argument name and value", "why_tests_cant": "The set of wrong names is infinite.", "anchors": ["skada/_self_labeling.py:DASVMClassifier.__init__", "skada/_reweight.py", "skada/_mapping.py", "skada/_subspace.py"]}
{"id": "C134", "title": "Any estimator can be plugged in", "statement": "Where an adapter or estimator accepts another estimator (density estimator, domain classifier, base estimator), any object with the needed methods is accepted and used as it is, and None means the documented default.", "quantifier": "every estimator object, including ensembles and pipelines, fitted or not", "why_tests_cant": "Tests plug in one or two estimators without a length; the failure depends on methods of the plugged-in class.", "anchors": ["skada/_reweight.py:DensityReweightAdapter.__init__", "skada/_reweight.py:DiscriminatorReweightAdapter.__init__", "skada/_gradual_da.py:GradualEstimator.fit", "skada/_ot.py:JDOTClassifier.__init__", "skada/_self_labeling.py:DASVMClassifier.__init__"]}
{"id": "C135", "title": "Pipelines built with default estimators are independent", "statement": "A pipeline built by a shorthand function without a base_estimator has the documented default estimator, whatever pipelines were built and configured before; changing a parameter of one pipeline changes no other pipeline.", "quantifier": "every sequence of pipeline constructions and set_params calls", "why_tests_cant": "The sharing shows only after a history of other calls in the same process; tests build each pipeline once.", "anchors": ["skada/_mapping.py:ClassRegularizerOTMapping", "skada/_mapping.py:OTMapping", "skada/_mapping.py:CORAL", "skada/_reweight.py:DensityReweight", "skada/_subspace.py:SubspaceAlignment"]}
{"id": "C136", "title": "Features come from the layer asked for", "statement": "A deep module returns, for every call that asks for features (and for every training call), the flattened output of the layer with the given name for the input of that very call, together with the output of the user's network; a name that is no layer is never served but raises.", "quantifier": "every history of building, cloning, deep copying, calling and training modules that may share a base network; every layer name and input", "why_tests_cant": "Hooks and cached activations survive between calls and are copied by clones; only a history argument excludes stale or foreign features.", "anchors": ["skada/deep/base.py:DomainAwareModule", "skada/deep/utils.py:_get_intermediate_layers", "skada/deep/utils.py:_register_forwards_hook"]}
{"id": "C137", "title": "Clones and repeated fits of deep nets are fresh and independent", "statement": "Cloning a deep net gives an independent, unfitted net with the same configuration, fitted or not; calling fit again starts from scratch, so a net can be used in cross-validation.", "quantifier": "every history of module calls and fits before the clone", "why_tests_cant": "Whether a copy fails or shares weights depends on what was run before; tests clone nets in one state.", "anchors": ["skada/deep/base.py:DomainAwareNet", "skada/deep/base.py:DomainAwareModule", "skada/deep/_adversarial.py:CDANModule"]}
{"id": "C138", "title": "A network that can be trained can predict", "statement": "Every base network that can be trained by a deep method can be used for prediction, with or without sample weights, whether or not its forward has a sample_weight parameter.", "quantifier": "every base network, every input, every history", "why_tests_cant": "Depends on the signature of the user's forward; tests use the toy networks of the package.", "anchors": ["skada/deep/base.py:DomainAwareModule.forward", "skada/deep/_adversarial.py:CDANModule.forward"]}
{"id": "C139", "title": "predict_proba returns probabilities and predict the most probable class", "statement": "For a classifier net, every row of predict_proba is a probability vector, and predict returns the first class of largest probability; the choice of the non-linearity does not change the labels; an invalid choice raises.", "quantifier": "every batch size, every output of the network, every choice of predict_nonlinearity", "why_tests_cant": "Quantifies over all real outputs and all criteria.", "anchors": ["skada/deep/base.py:DomainAwareNet.predict_proba", "skada/deep/base.py:DomainAwareNet._get_predict_nonlinearity", "skada/deep/base.py:DomainAwareNet.predict"]}
{"id": "C140", "title": "predict_features keeps the rows in order", "statement": "predict_features returns one row per input sample in the order of the input, whatever the batch size; no features for an empty input: ValueError.", "quantifier": "every input (array, dictionary or dataset), every batch size", "why_tests_cant": "Row order across batches has to hold for every combination of size and batch size.", "anchors": ["skada/deep/base.py:DomainAwareNet.predict_features", "skada/deep/base.py:DomainAwareNet.feature_iter"]}
{"id": "C141", "title": "The graph alignment loss compares the shape of the batches", "statement": "The graph alignment loss is never negative, symmetric in source and target, independent of the order of the samples of either batch, unchanged by rigid motions of either batch (distance and Gaussian metric), and zero if one batch is a permutation or a moved copy of the other; it is defined for all batches of the same size, and unknown metrics, unknown Laplacians and other sizes raise. Its value is the distance between the singular values of the documented Laplacians of the cosine, Gaussian or distance graphs; with the cosine metric the lengths of the feature vectors do not matter.", "quantifier": "every pair of batches of features, every metric and Laplacian", "why_tests_cant": "Invariances over all real batches, permutations and motions.", "anchors": ["skada/deep/losses.py:gda_loss", "skada/deep/losses.py:_adj", "skada/deep/losses.py:_laplacian"]}
{"id": "C142", "title": "Training schedules count every epoch once", "statement": "A net whose loss depends on the number of epochs (SPA) sees 1, 2, 3, ... during training, whatever callbacks the user passes and however many nets were built before; the user's callbacks are left unchanged.", "quantifier": "every callbacks argument (none, one, a list), every sequence of nets built with it", "why_tests_cant": "The double counting appears only when a list is reused for another net.", "anchors": ["skada/deep/_graph_alignment.py:SPA", "skada/deep/_divergence.py:CAN", "skada/deep/callbacks.py:CountEpochs"]}
{"id": "C143", "title": "Source-only and target-only baselines train on their own side", "statement": "SourceOnly minimises the base criterion on the source samples and their labels, TargetOnly on the target samples and their labels, the other side having no influence; both accept sample weights as every other method.", "quantifier": "every batch mixing source and target samples in any order, all labels, predictions and weights", "why_tests_cant": "The labels and predictions of a batch are arbitrary; tests only check that fit runs.", "anchors": ["skada/deep/_baseline.py:SourceOnly", "skada/deep/_baseline.py:TargetOnly", "skada/deep/base.py:DomainAwareCriterion.forward"]}
{"id": "C144", "title": "Default domain classifiers fit the features or are refused", "statement": "When no domain classifier is given, DANN, CDAN, MDD and SPA build one whose input size matches what the module feeds to it, and raise ValueError if the sizes needed are missing.", "quantifier": "every combination of given and missing sizes, every batch", "why_tests_cant": "Size combinations are unbounded (in particular the random features of CDAN); tests try one size.", "anchors": ["skada/deep/_adversarial.py:DANN", "skada/deep/_adversarial.py:CDAN", "skada/deep/_adversarial.py:MDD", "skada/deep/_graph_alignment.py:SPA"]}
{"id": "C145", "title": "Gradient reversal trains the features against the domain classifier", "statement": "With the gradient reversal layer the gradient of each parameter of the feature extractor is that of base loss - reg * alpha * domain loss, while the domain classifier follows the gradient of reg * domain loss.", "quantifier": "every differentiable feature extractor, domain loss and base loss, every point, reg and alpha", "why_tests_cant": "A statement about derivatives of arbitrary functions.", "anchors": ["skada/deep/modules.py:GradientReversalLayer", "skada/deep/base.py:DomainAwareCriterion.forward"]}
{"id": "C146", "title": "The SPA loss is the announced combination", "statement": "The SPA loss is reg_adv and a weight growing from 0 with the epochs times the domain loss, plus reg_gsa times the graph alignment loss with the Gaussian metric, plus reg_nap and epoch / max_epochs times the pseudo-label loss; it is never negative if its parts are not.", "quantifier": "every batch, all non-negative weights, every epoch and maximal number of epochs", "why_tests_cant": "All real batches and epochs.", "anchors": ["skada/deep/_graph_alignment.py:SPALoss"]}
{"id": "C147", "title": "An interrupted download never corrupts later calls", "statement": "Once a call that may download has completed, every later fetch returns the complete data; before it, a call not allowed to download raises OSError; a download that is interrupted, or still going on in another process, never makes another call return incomplete data: such a call downloads again or raises.", "quantifier": "every history of calls with and without permission to download, every crash point of the download and extraction, every archive", "why_tests_cant": "Crash points and concurrent calls cannot be enumerated by tests, which never interrupt a download.", "anchors": ["skada/datasets/_office.py:_fetch_office31", "skada/datasets/_office.py:_download_office31", "skada/datasets/_office_home.py:_fetch_office_home", "skada/datasets/_amazon_review.py:_fetch_amazon_review", "skada/datasets/_amazon_review.py:_download_amazon_review"]}
{"id": "C148", "title": "Office-31: every image once, with the label of its category", "statement": "fetch_office31_* returns each file of the domain whose category is asked for exactly once, shuffled or not; label k of a row is the position of the category of its file in target_names, which are sorted and are the categories present and asked for; a warning tells if one is missing; domains with the same folders use the same labels; wrong dimensions and missing data raise.", "quantifier": "every directory, every list of categories, every shuffling", "why_tests_cant": "Quantifies over all directory contents, category lists and permutations; tests need the network.", "anchors": ["skada/datasets/_office.py:_load_office31", "skada/_utils.py:_shuffle_arrays"]}
{"id": "C149", "title": "Office-Home and Amazon reviews: domains partition the data, rows keep their labels", "statement": "The domains returned by the *_all functions contain each row of the files exactly once with its label, and the data of one domain are those of the single-domain function (up to the order when shuffled).", "quantifier": "every file content, every list of domains, every shuffling", "why_tests_cant": "All contents and permutations.", "anchors": ["skada/datasets/_office_home.py:_load_office_home", "skada/datasets/_office_home.py:_load_office_home_all", "skada/datasets/_amazon_review.py:_load_amazon_review"]}
{"id": "C150", "title": "MNIST-USPS: the fraction asked for, without repetition", "statement": "load_mnist_usps returns the fraction n_samples of the samples of the first n_classes classes of both data sets with their labels, each sample at most once, so all of them for n_samples=1; other fractions raise ValueError.", "quantifier": "every data set, fraction, number of classes and random state", "why_tests_cant": "Holds for random states only if the sampling is without replacement; tests need the network and check shapes.", "anchors": ["skada/datasets/_mnist_usps.py:load_mnist_usps"]}
{"id": "C151", "title": "DEV: the default loss is the log-loss of the sample's label", "statement": "DeepEmbeddedValidation with the default loss charges every validation sample minus the logarithm of the (clipped) probability the model gives to the label of the sample, whatever the class labels are; one value per sample, non-negative and bounded.", "quantifier": "every probability table, every label assignment, every set of class labels", "why_tests_cant": "Labels other than 0..k-1 and label dtypes are not enumerable by example tests; the existing tests use 0/1 labels only.", "anchors": ["skada/metrics.py:DeepEmbeddedValidation._no_reduc_log_loss", "skada/metrics.py:DeepEmbeddedValidation.cross_entropy_loss"]}
{"id": "C152", "title": "DEV: the features compared are those the final estimator receives", "statement": "The features on which DeepEmbeddedValidation trains its domain discriminator are, for source and target samples alike, the output of all the steps before the final estimator, as in the computation of predictions.", "quantifier": "every pipeline, every data set", "why_tests_cant": "Quantifies over every composition of steps, selectors and adapters.", "anchors": ["skada/metrics.py:DeepEmbeddedValidation._score"]}
{"id": "C153", "title": "KLIEP: the bandwidth maximises the likelihood of held-out targets", "statement": "With a list of bandwidths KLIEPReweightAdapter keeps the first of those whose mean log-likelihood over cv folds is largest; every target sample is held out in exactly one fold, the centres of a fold are training samples of it (never held-out ones when the targets are distinct), and fewer targets than folds, fewer than two folds or an empty list raise ValueError.", "quantifier": "every data set, kernel, number of folds, list of bandwidths and draw of the centres", "why_tests_cant": "The partition and the absence of leakage must hold for every size and every random draw.", "anchors": ["skada/_reweight.py:KLIEPReweightAdapter._likelihood_cross_validation", "skada/_reweight.py:KLIEPReweightAdapter.fit"]}
{"id": "C154", "title": "MMDTarS with continuous labels: bounded weights that depend on the label", "statement": "With continuous labels the MMDTarS adapter gives source samples with equal labels equal weights; the fitted weights lie in [0, 10] with sum within m(1 +/- eps) when the solver meets its constraints; data seen in fit get the fitted weights, other source samples the weight of the nearest fitted source sample, targets the constant 1e-13.", "quantifier": "every data set, label assignment, distance and solver result", "why_tests_cant": "Universally quantified over data and solver outputs; tests look at shapes.", "anchors": ["skada/_reweight.py:MMDTarSReweightAdapter.fit", "skada/_reweight.py:MMDTarSReweightAdapter.compute_weights"]}
{"id": "C155", "title": "Covariance estimates of CORAL and the Gaussian adapter", "statement": "For every reg the estimate is a covariance (symmetric, positive semidefinite; definite as soon as there is shrinkage and the data vary) that does not depend on where the data lie; None is the empirical one, a number in [0,1] shrinks it towards the mean variance times the identity (others raise ValueError), \"auto\" keeps the variances and shrinks the covariances by a common factor; assume_centered=True replaces the covariance by the second moments; CORAL's map takes the source estimate to the target estimate.", "quantifier": "every data matrix, every reg, every shrinkage intensity found by Ledoit-Wolf", "why_tests_cant": "Matrix identities for all data; tests compare one random data set.", "anchors": ["skada/_utils.py:_estimate_covariance", "skada/_mapping.py:CORALAdapter.fit", "skada/_reweight.py:GaussianReweightAdapter.fit"]}
{"id": "C156", "title": "Gaussian weights do not depend on the origin or the units", "statement": "Moving all samples by a vector, or (without shrinkage or with the default one) changing the units of the features, before fitting and computing changes no weight of the Gaussian adapter; without shift between source and target all source weights are 1.", "quantifier": "every data set without constant feature, every translation and positive rescaling", "why_tests_cant": "Metamorphic relation over all data and all rescalings.", "anchors": ["skada/_reweight.py:GaussianReweightAdapter.fit", "skada/_reweight.py:GaussianReweightAdapter.compute_weights", "skada/_utils.py:_estimate_covariance"]}
{"id": "C157", "title": "The provided estimators accept domain information and can be chained", "statement": "Inside a DA pipeline, predict/predict_proba/score of JDOTRegressor, JDOTClassifier, DASVMClassifier and GradualEstimator give the result of the fitted estimator whatever sample_domain and allow_source are passed; fit returns the estimator, so fit(...).predict(...) works; nothing is predicted before fit; sample weights for score are never dropped silently.", "quantifier": "every estimator class, method, keyword combination and fitted estimator", "why_tests_cant": "Quantifies over all keyword combinations and fitted inner estimators; the tests call a few of them.", "anchors": ["skada/_ot.py:JDOTRegressor", "skada/_ot.py:JDOTClassifier", "skada/_self_labeling.py:DASVMClassifier", "skada/_gradual_da.py:GradualEstimator"]}
{"id": "C158", "title": "The array and dict views of a DeepDADataset give it back", "statement": "DeepDADataset built from as_arrays() or as_dict() of a dataset is that dataset (samples, labels, domains, weights, sample numbers), also after in-place merges, whose sample numbers it repairs; domains() lists every label once; add_domain accepts a dataset, a dict or arrays alike and returns the dataset with the samples of the domain added, keeping the weights.", "quantifier": "every dataset and every added domain", "why_tests_cant": "Round trips over all data sets.", "anchors": ["skada/deep/base.py:DeepDADataset.as_arrays", "skada/deep/base.py:DeepDADataset.as_dict", "skada/deep/base.py:DeepDADataset.add_domain", "skada/deep/base.py:DeepDADataset.domains"]}
{"id": "C159", "title": "A refused change leaves a DeepDADataset as it was", "statement": "After any sequence of in-place merges, additions and removals of weights, some of them raising exceptions, a DeepDADataset holds one label and one domain per sample and the samples of all merges that succeeded, and a call that raises changes nothing.", "quantifier": "every dataset and every history of calls, successful or not", "why_tests_cant": "Quantifies over histories with failures.", "anchors": ["skada/deep/base.py:DeepDADataset.merge", "skada/deep/base.py:DeepDADataset.add_weights", "skada/deep/base.py:DeepDADataset.remove_weights"]}
{"id": "C160", "title": "The shorthands build the documented pipeline", "statement": "Every argument of a shorthand (OTMapping, CORAL, KMMReweight, TransferComponentAnalysis, ...) reaches the adapter under its name, arguments left out have the documented default, the estimator is the one given, and unknown names are refused.", "quantifier": "all twenty shorthands, every combination of arguments", "why_tests_cant": "All subsets and values of arguments of twenty functions.", "anchors": ["skada/_mapping.py:LinearOTMapping", "skada/_mapping.py:OTMapping", "skada/_reweight.py:KMMReweight", "skada/_subspace.py:TransferJointMatching", "skada/_ot.py:OTLabelProp"]}
{"id": "C161", "title": "Adapters see the role of a domain, not its name", "statement": "Replacing domain labels by other labels with the same role (non-negative: source, negative: target) changes nothing: splitting, merging, the fitted models and weights of the reweighting adapters, the transforms of mapping and subspace adapters, JDOT, OT label propagation, DASVM, source-target shuffle splits and all scores are the same, exceptions included; the shared and the source/target selectors make the same calls with the labels renamed. Domains may even be merged into one.", "quantifier": "every renaming of labels that keeps roles, every data set, every external solver, kernel and estimator that does not look at the labels", "why_tests_cant": "Ranges over all relabelings and all data sets.", "anchors": ["skada/utils.py:source_target_split", "skada/utils.py:source_target_merge", "skada/_utils.py", "skada/_reweight.py", "skada/_mapping.py", "skada/_subspace.py", "skada/_ot.py", "skada/_self_labeling.py", "skada/metrics.py", "skada/model_selection.py:SourceTargetShuffleSplit", "skada/base.py:Shared", "skada/base.py:SelectSource"]}
{"id": "C162", "title": "The names of the domains only have to be different", "statement": "Components that treat every domain on its own (extraction of domain indices, PerDomain fit and predict, multi-source Monge alignment) give, under an injective renaming of the labels, the same result filed under the new names. Random splitters by domain, JCPOT label propagation and leave-one-domain-out are unchanged if the renaming also keeps the order of the labels (and, for leave-one-domain-out, the pairing of d with -d).", "quantifier": "every injective (order-preserving where stated) renaming of labels, every data set", "why_tests_cant": "Ranges over all relabelings and all data sets.", "anchors": ["skada/utils.py:extract_domains_indices", "skada/base.py:PerDomain", "skada/_mapping.py:MultiLinearMongeAlignmentAdapter", "skada/model_selection.py:DomainShuffleSplit", "skada/model_selection.py:StratifiedDomainShuffleSplit", "skada/model_selection.py:LeaveOneDomainOut", "skada/_ot.py:JCPOTLabelPropAdapter"]}
{"id": "C163", "title": "The order of the samples does not matter", "statement": "Presenting the same samples, each with its domain label, in another order changes nothing but the order: reweighting adapters fit the same densities and discriminators and give every sample the same weight; CORAL and Gaussian reweighting fit the same moments; transforms that act row by row (subspace alignment, transfer subspace, CORAL, Monge, new data through TCA/TJM) give every sample the same image; PerDomain gives every sample the same prediction; supervised, importance-weighted, entropy and soft-neighbourhood scores are equal.", "quantifier": "every data set and every reordering of it, every external estimator that itself ignores the order", "why_tests_cant": "Ranges over all permutations of all data sets.", "anchors": ["skada/_reweight.py:DensityReweightAdapter", "skada/_reweight.py:GaussianReweightAdapter", "skada/_reweight.py:DiscriminatorReweightAdapter", "skada/_reweight.py:KLIEPReweightAdapter", "skada/_mapping.py:CORALAdapter", "skada/_mapping.py:MultiLinearMongeAlignmentAdapter", "skada/_subspace.py", "skada/base.py:PerDomain", "skada/metrics.py"]}
{"id": "C164", "title": "The deep losses do not depend on the order of a batch", "statement": "The DeepCORAL, DAN (given or default bandwidths), MCC, MDD and CAN losses have the same value, or raise the same exception, when the source batch and the target batch are each reordered, predictions and labels staying with their samples.", "quantifier": "every batch, every reordering", "why_tests_cant": "Ranges over all permutations of all batches.", "anchors": ["skada/deep/losses.py:deepcoral_loss", "skada/deep/losses.py:dan_loss", "skada/deep/losses.py:mcc_loss", "skada/deep/losses.py:cdd_loss", "skada/deep/_adversarial.py:MDDLoss"]}
{"id": "C165", "title": "The example networks treat samples one by one and have the announced sizes", "statement": "In evaluation mode the output of ToyModule2D, ToyCNN and MNISTtoUSPSNet on a batch is the list of their outputs on its samples. ToyModule2D gives n_classes numbers for every sample with two features and refuses others; with proba=True these are probabilities and the largest one is where it is with proba=False. ToyCNN can be built exactly if the kernel fits into the input; its attribute num_features is the size of the flattened features of every sample of the announced size, and it gives n_classes outputs for every input at least as long as the kernel. MNISTtoUSPSNet gives ten outputs and accepts exactly the one-channel images whose convolutional output has 9216 entries, among them 28 x 28. In training mode the outputs under a dropout mask and under the opposite mask average to the evaluation output. Convolutions are affine with the weights as their response to single entries, pooling keeps the largest entry of a block, flattening keeps the entries in order.", "quantifier": "all weights, sizes, batches, non-linearities, dropout masks, and all contents of the uninitialised memory used to determine num_features", "why_tests_cant": "Tests run one batch of random data of one size; they cannot show independence of the samples, sizes for all parameters, or independence of uninitialised memory.", "anchors": ["skada/deep/modules.py:ToyModule2D", "skada/deep/modules.py:ToyCNN", "skada/deep/modules.py:MNISTtoUSPSNet"]}
{"id": "C166", "title": "The deep methods accept the arguments their documentation lists", "statement": "DANN, CDAN, MDD, DeepCoral, DAN, CAN, DeepJDOT, MCC, SPA, SourceOnly and TargetOnly accept every combination of the parameters of their docstrings and of skorch's training options; the module and the criteria may be given in the documented forms (class or instance for the module, class for the criteria); a parameter documented as ignored has no effect; misspelt names and missing required arguments raise TypeError.", "quantifier": "all methods, all sets of keyword names, all modules and criteria, all batches", "why_tests_cant": "Tests call each function with a few arguments, always with instances and with existing layers.", "anchors": ["skada/deep/_adversarial.py:DANN", "skada/deep/_adversarial.py:CDAN", "skada/deep/_adversarial.py:MDD", "skada/deep/_divergence.py:CAN", "skada/deep/_optimal_transport.py:DeepJDOT", "skada/deep/_graph_alignment.py:SPA", "skada/deep/_baseline.py:SourceOnly", "skada/deep/base.py:DomainAwareCriterion", "skada/deep/utils.py:_register_forwards_hook"]}
{"id": "C167", "title": "The training loss is the announced combination", "statement": "The loss minimised by a net built by one of the deep methods is, on every batch, the base criterion on the source samples (mean cross entropy by default; the target samples for TargetOnly) plus reg times the loss of the method on the source and target rows, with the hyper-parameters given by the caller (reg, gamma, assume_centered, sigmas, thresholds, reg_dist, reg_cl, T, reg_adv, reg_gsa, reg_nap, max_epochs, criteria) in their documented places and the documented default values.", "quantifier": "all batches (predictions, domain predictions, features, domains in any order, labels), all hyper-parameters, all criteria", "why_tests_cant": "Tests train for a few epochs and look at shapes; an exchanged or dropped hyper-parameter changes only the values.", "anchors": ["skada/deep/_adversarial.py:DANN", "skada/deep/_adversarial.py:CDAN", "skada/deep/_adversarial.py:MDD", "skada/deep/_divergence.py:DeepCoral", "skada/deep/_divergence.py:DAN", "skada/deep/_divergence.py:CAN", "skada/deep/_optimal_transport.py:DeepJDOT", "skada/deep/_class_confusion.py:MCC", "skada/deep/_graph_alignment.py:SPA", "skada/deep/_baseline.py:SourceOnly", "skada/deep/base.py:DomainAwareCriterion"]}
{"id": "C168", "title": "packing torch data", "statement": "Packing domains given as torch tensors works as packing numpy arrays: every return type gives the rows, labels and signed domain labels of the domains in order, in the container it names, from arrays as well as from tensors, and mask_target_labels=True hides every target label.", "quantifier": "every list of source and target domains of tensors or arrays, every return type, mask value and masking flag", "why_tests_cant": "The container types, dtypes, optional labels and mask values combine in too many ways; the tests only pack labelled tensors without masking.", "anchors": ["skada/datasets/_base.py:DomainAwareDataset.pack"]}
{"id": "C169", "title": "random_state decides the randomness", "statement": "With an integer random_state the result of a splitter, subsampler, scorer, KLIEP, SubspaceAlignment, data set generator or clustering is determined by its arguments: it does not depend on numpy's or torch's generators, on earlier calls or on what the caller does between two splits, and it leaves these generators as they are; asking for more splits adds splits after the same first ones. Seeding numpy's generator, or a RandomState instance passed as random_state, before the call has the same effect, and successive calls then continue the sequence. For every random_state the splits are valid splits. Documented defaults and forms of random_state (None, int, instance) are accepted.", "quantifier": "every random_state, every state of the generators, every number of splits, every code run by the caller between two splits", "why_tests_cant": "Reproducibility concerns all states of the generators and all interleavings with other code; a test compares two runs from one state.", "anchors": ["skada/model_selection.py:SourceTargetShuffleSplit", "skada/model_selection.py:StratifiedDomainShuffleSplit", "skada/model_selection.py:DomainShuffleSplit", "skada/model_selection.py:LeaveOneDomainOut", "skada/_utils.py:_shuffle_arrays", "skada/_reweight.py:KLIEPReweightAdapter", "skada/metrics.py:MixValScorer", "skada/metrics.py:DeepEmbeddedValidation", "skada/transformers.py:Subsampler", "skada/_subspace.py:SubspaceAlignmentAdapter", "skada/datasets/_samples_generator.py", "skada/deep/utils.py:SphericalKMeans"]}
{"id": "C170", "title": "the value given to a sample does not depend on its companions", "statement": "A fitted adapter treats samples one by one: for any selection of the samples of a call (with their domain labels), transforming the selection gives the selected rows of the transform of everything, and the weights of the selection are the selected weights (up to one common factor for DensityReweight and DiscriminatorReweight, which normalise by the mean of the call). The same holds for PerDomain and SelectSourceTarget around estimators that treat samples one by one.", "quantifier": "every fitted state, every data set and every non-empty selection of its samples", "why_tests_cant": "The number of possible selections is exponential; a test compares one batch with another.", "anchors": ["skada/_mapping.py:BaseOTMappingAdapter.transform", "skada/_mapping.py:CORALAdapter.transform", "skada/_mapping.py:MultiLinearMongeAlignmentAdapter.transform", "skada/_mapping.py:MMDLSConSMappingAdapter.transform", "skada/_subspace.py:SubspaceAlignmentAdapter.transform", "skada/_subspace.py:TransferComponentAnalysisAdapter.transform", "skada/_subspace.py:TransferJointMatchingAdapter.transform", "skada/_reweight.py:KMMReweightAdapter.compute_weights", "skada/_reweight.py:MMDTarSReweightAdapter.compute_weights", "skada/_reweight.py:KLIEPReweightAdapter.compute_weights", "skada/base.py:PerDomain", "skada/base.py:SelectSourceTarget"]}
{"id": "C171", "title": "fetched data sets hold every domain and can be packed for training", "statement": "fetch_office31_surf_all, fetch_office31_decaf_all, fetch_amazon_review_all and fetch_office_home_all return a dataset with one domain per documented name, in that order, each holding what the function for one domain returns; a domain may be named in any case, an unknown name raises ValueError before anything is downloaded; the single-domain functions return the documented container; packing the result with mask_target_labels=True hides every target label and the labels are recognised as those of a classification task; the csv file of Office-Home is read line by line or refused; the data folder is the argument, else SKADA_DATA_FOLDER, else the default, and exists afterwards.", "quantifier": "every content of the archives and of the csv file, every state of the disk, every way to write a name, every choice of sources and targets", "why_tests_cant": "The tests need the network and look at one archive each; labels of the packed targets are only looked at with mask_target_labels=False.", "anchors": ["skada/datasets/_office.py:_fetch_office31_all", "skada/datasets/_office.py:_fetch_office31", "skada/datasets/_amazon_review.py:_fetch_amazon_review_all", "skada/datasets/_amazon_review.py:_fetch_amazon_review", "skada/datasets/_office_home.py:_fetch_office_home_all", "skada/datasets/_office_home.py:parse_office_home_csv", "skada/datasets/_base.py:get_data_home", "skada/datasets/_base.py:DomainAwareDataset.pack"]}
{"id": "C172", "title": "the scoring argument and the options of the scorers do what they say", "statement": "SupervisedScorer, ImportanceWeightedScorer and MixValScorer accept as scoring None (the score method of the estimator), the name of a metric, or a function scorer(estimator, X, y); the score is then the value of that metric on the samples the scorer selects, with the sign of greater_is_better; an unknown name is refused; the other options (reduction, ice_type, p) are refused by the constructor exactly when they are not among the documented ones.", "quantifier": "every estimator, scoring argument, metric, data set and option value", "why_tests_cant": "The tests only use scoring=None and the documented options; a metric name or a plain function is never passed.", "anchors": ["skada/metrics.py:SupervisedScorer", "skada/metrics.py:ImportanceWeightedScorer._score", "skada/metrics.py:MixValScorer._score", "skada/metrics.py:_BaseDomainAwareScorer", "skada/metrics.py:_estimator_score", "skada/metrics.py:PredictionEntropyScorer.__init__", "skada/metrics.py:MixValScorer.__init__", "skada/metrics.py:MaNoScorer.__init__"]}
{"id": "C173", "title": "scoring leaves the estimators alone and has no memory", "statement": "Scoring an estimator with ImportanceWeightedScorer, DeepEmbeddedValidation, CircularValidation or MaNoScorer leaves the estimator as it was, even though circular validation refits one; every result in a series of scorings, by any scorers, of any estimators, in any order and with failures in between, is the one a new scorer gives when it is called first; the attributes read from a scorer after a call are those of that call.", "quantifier": "every sequence of scorings, estimator, data set, random split and outcome of a fit, including failures", "why_tests_cant": "Tests score once with a new scorer; an estimator fitted again in place or a density kept from an earlier call needs a history of calls to show.", "anchors": ["skada/metrics.py:ImportanceWeightedScorer._fit", "skada/metrics.py:ImportanceWeightedScorer._score", "skada/metrics.py:DeepEmbeddedValidation._fit_adapt", "skada/metrics.py:CircularValidation._score", "skada/metrics.py:MaNoScorer._softrun"]}
{"id": "C174", "title": "adapters that compare samples by distance do not depend on the coordinates", "statement": "KLIEPReweight (also with a list of bandwidths), DensityReweight, KMMReweight, NearestNeighborReweight, MMDTarSReweight (classes or continuous labels), TransferComponentAnalysis, TransferJointMatching and the label propagation by optimal transport see the samples through a kernel or a distance only: rotating, reflecting and shifting all samples, those of fit and those of later calls, changes no weight, no new feature and no propagated label, and turns no success into a failure. With gamma=\"scale\" the rbf kernel does not change either when all features are expressed in another unit.", "quantifier": "every data set, orthogonal matrix and shift, kernel of distances, unit, domain labels, random draw and option value, for the samples of fit as well as for new ones", "why_tests_cant": "A test can compare one rotation of one data set up to rounding; a feature used outside the kernel shows only on data where it matters.", "anchors": ["skada/_reweight.py:KLIEPReweightAdapter", "skada/_reweight.py:DensityReweightAdapter", "skada/_reweight.py:KMMReweightAdapter", "skada/_reweight.py:NearestNeighborReweightAdapter", "skada/_reweight.py:MMDTarSReweightAdapter", "skada/_subspace.py:TransferComponentAnalysisAdapter", "skada/_subspace.py:TransferJointMatchingAdapter", "skada/_ot.py:OTLabelPropAdapter"]}
{"id": "C175", "title": "fitting again forgets the past", "statement": "An adapter, estimator, subsampler or selector that was used before - fitted on other data, called, made to fail, given other parameters - and is then fitted has the outcome of a new object with the same parameters, and everything computed with it afterwards is the same as with that new object. Methods that do not fit (transform, compute_weights, predict, predict_proba, score, get_estimator, ...) change nothing in the object, and no call ever changes a parameter.", "quantifier": "every one of 30 classes (all shallow adapters, estimators, subsamplers and selectors except KLIEPReweightAdapter, see C80, and GradualEstimator, see C94), every history of calls and parameter changes with failures anywhere, every meaning of the computations", "why_tests_cant": "Tests fit new objects; an attribute left over from an earlier fit, or from a fit that failed halfway, needs a particular history to show.", "anchors": ["skada/_mapping.py", "skada/_reweight.py", "skada/_subspace.py", "skada/_ot.py", "skada/_self_labeling.py:DASVMClassifier", "skada/transformers.py", "skada/base.py:Shared", "skada/base.py:PerDomain", "skada/base.py:SelectSource", "skada/base.py:SelectTarget", "skada/base.py:SelectSourceTarget"]}
{"id": "C176", "title": "classes are names", "statement": "Renaming the classes of a classification problem, in an order-preserving way that keeps the mask -1, renames the results in the same way and changes nothing else: the plans, losses and weights of JDOTClassifier, the labels given by OTLabelPropAdapter, the objective of TransferSubspaceLearningAdapter, the splits of StratifiedDomainShuffleSplit, the samples that DASVMClassifier adds and removes, what MMDLSConSMappingAdapter fits and returns, and the scores of MixValScorer and CircularValidation.", "quantifier": "every data set with class labels, every order-preserving renaming that keeps -1, every base estimator, scorer and solver that treats classes as names, including data on which the calls fail", "why_tests_cant": "A test uses one set of class names, mostly 0 and 1 (or 1 and 2); a comparison with the number of a class, or an index used as a class, needs other names to show.", "anchors": ["skada/_ot.py:JDOTClassifier", "skada/_ot.py:solve_jdot_classification", "skada/_ot.py:OTLabelPropAdapter", "skada/_mapping.py:MMDLSConSMappingAdapter", "skada/_subspace.py:TransferSubspaceLearningAdapter", "skada/model_selection.py:StratifiedDomainShuffleSplit", "skada/_self_labeling.py:DASVMClassifier", "skada/metrics.py:MixValScorer", "skada/metrics.py:CircularValidation"]}
{"id": "C177", "title": "KMM and MMDTarS match the mean of the target in the feature space of the kernel", "statement": "The weights that KMMReweightAdapter fits with the scipy solver lie in [0, B] with a sum within the allowed distance of the number of samples, and among all such weights no others bring the weighted mean of the sources closer to the mean of the targets in the feature space of the kernel. With the frank-wolfe solver the squared distance is within 16 kappa (1+eps)^2 / (max_iter + 2) of the best, whatever the number of samples, kappa being the largest value kern(x, x). The class weights that MMDTarSReweightAdapter fits are, up to a term of 1e-12, the best in the same sense among the allowed class weights, the sources being weighted through the smoothing of the labels.", "quantifier": "every data set, every kernel with a finite feature map, every B, eps in [0, 1], regularisation and number of iterations, every external minimiser that returns a minimiser of the problem it is given", "why_tests_cant": "A test compares the weights with stored values or looks only at their shape; that the quadratic problem handed to the solver is the discrepancy between the two domains is a statement about all data.", "anchors": ["skada/_reweight.py:KMMReweightAdapter", "skada/_reweight.py:MMDTarSReweightAdapter", "skada/utils.py:qp_solve", "skada/utils.py:frank_wolfe"]}
{"id": "C178", "title": "the iteration of JDOT descends and stops by itself", "statement": "With an exact optimal transport solver and a base estimator that minimises the loss of the chosen metric over a class of predictors, the transport losses that JDOTRegressor and JDOTClassifier (thr_weights=0) report never increase from one iteration to the next. If moreover alpha is in [0, 1] and the distances (and class losses) are not negative, the losses are not negative, and the warning that the maximal number of iterations was reached can only appear when (n_iter_max - 1) * tol is at most the first loss. With a positive thr_weights and class losses in [0, B] a loss of JDOTClassifier exceeds the previous one by at most alpha * B * (number of classes) * thr_weights, and the claim about the warning holds when this is less than tol.", "quantifier": "every data set, source weights, class of predictors (for the regressor one containing the zero predictor, for the classifier one with class losses at most 10), alpha, tolerance, threshold and number of iterations; every target weights, for the classifier when thr_weights=0", "why_tests_cant": "A test runs a few iterations on one data set; that the two alternating steps minimise the same objective, so that no schedule of iterations can go up, is a statement about all data and estimators.", "anchors": ["skada/_ot.py:JDOTRegressor", "skada/_ot.py:JDOTClassifier", "skada/_ot.py:solve_jdot_regression", "skada/_ot.py:solve_jdot_classification"]}
{"id": "C179", "title": "unsupervised scorers never look at target labels", "statement": "When the domains are given, the scores of ImportanceWeightedScorer, PredictionEntropyScorer, SoftNeighborhoodDensity and DeepEmbeddedValidation are the same whatever the labels of the target samples are, masked or not. MixValScorer and MaNoScorer only look at the type of the labels (classes or numbers). CircularValidation refuses labels that are not masked, and among those it accepts the labels of the targets make no difference.", "quantifier": "every data set, domain layout, estimator, inner scorer and density, including calls that fail", "why_tests_cant": "A leak of target labels makes a selection criterion look better on every benchmark, so tests on labelled data cannot notice it; independence is a statement about pairs of runs.", "anchors": ["skada/metrics.py:ImportanceWeightedScorer", "skada/metrics.py:PredictionEntropyScorer", "skada/metrics.py:SoftNeighborhoodDensity", "skada/metrics.py:DeepEmbeddedValidation", "skada/metrics.py:CircularValidation", "skada/metrics.py:MixValScorer", "skada/metrics.py:MaNoScorer"]}
{"id": "C180", "title": "adapters and estimators never look at target labels", "statement": "When the domains are given, MMDTarSReweightAdapter (weights and fit, class labels or continuous labels), MMDLSConSMappingAdapter (fit and transform), OTLabelPropAdapter, JCPOTLabelPropAdapter, JDOTRegressor, JDOTClassifier and DASVMClassifier give the same result whatever the labels of the target samples are.", "quantifier": "every data set, domain layout, solver and base estimator, including calls that fail", "why_tests_cant": "A leak of target labels improves the accuracy on every benchmark, so tests on labelled data cannot notice it; independence is a statement about pairs of runs.", "anchors": ["skada/_reweight.py:MMDTarSReweightAdapter", "skada/_mapping.py:MMDLSConSMappingAdapter", "skada/_ot.py:OTLabelPropAdapter", "skada/_ot.py:JCPOTLabelPropAdapter", "skada/_ot.py:JDOTRegressor", "skada/_ot.py:JDOTClassifier", "skada/_self_labeling.py:DASVMClassifier"]}
{"id": "C181", "title": "only the proportions of the sample weights matter", "statement": "Multiplying the sample weights of all sources by one positive factor and those of all targets by another changes nothing in the labels of OTLabelPropAdapter and in what JDOTClassifier fits and reports; the same holds for JDOTRegressor when its base estimator has this property.", "quantifier": "every data set and sample weights with a positive total on each side, every pair of positive factors, every solver and base estimator", "why_tests_cant": "A test uses one vector of weights; independence of the scale is a statement about pairs of runs.", "anchors": ["skada/_ot.py:OTLabelPropAdapter", "skada/_ot.py:JDOTClassifier", "skada/_ot.py:JDOTRegressor"]}
{"id": "C182", "title": "a pipeline trains its final estimator on the adapted sources", "statement": "Fit a pipeline made of any number of adapters, the first of which masks the target labels (as make_da_pipeline sets up), and a final estimator that is not a transformer and does not ask for sample_domain. Every adapter is called with all samples, as returned by the adapter before it, and with the target labels masked. The final estimator is fitted exactly on the source samples as returned by the last adapter, on the labels the user gave for them, and on the source part of the parameters it asks for; the value of such a parameter is the one set by the last adapter that set it, or else the user's. When the last adapter labels the targets instead (label propagation) the final estimator is fitted exactly on the target samples and those labels.", "quantifier": "every pipeline length, adapter, routing, number of samples, domain layout, discrete or continuous labels", "why_tests_cant": "The composition of masking, metadata override and removal of masked samples has to hold for each pipeline and each data set; a test sees the accuracy of a few pipelines, which training on some wrong rows hardly changes.", "anchors": ["skada/base.py:Shared", "skada/base.py:BaseSelector", "skada/base.py:MetadataContainer", "skada/_utils.py:_remove_masked", "skada/_pipeline.py:make_da_pipeline"]}
{"id": "C183", "title": "a fitted pipeline predicts samples one by one", "statement": "Take a fitted pipeline that mixes Shared, SelectSource, SelectTarget, PerDomain and SelectSourceTarget steps around adapters and estimators that treat samples one by one. The prediction for a sample depends only on its row and its domain label: it is the row passed through the fitted function of each step, chosen by the domain where the selector has several. It does not depend on the other samples of the batch, on their order or on their number, and predicting a batch in parts gives the same as predicting it at once.", "quantifier": "every number and mixture of steps, every batch, domain layout made of domains known to the pipeline", "why_tests_cant": "Rows written back to the wrong place, or a step whose routing depends on the rest of the batch, only show for particular orders and mixtures of domains; the statement compares all batches.", "anchors": ["skada/base.py:Shared", "skada/base.py:PerDomain", "skada/base.py:SelectSourceTarget", "skada/_utils.py:_merge_domain_outputs"]}
{"id": "C184", "title": "after a successful fit nothing is missing", "statement": "Once fit has returned, no public method of a shallow estimator or adapter, and no further fit, fails because an attribute of the object is missing, whatever is called before or after, including later fits that fail half way. Fitting itself never reads an attribute that was not set.", "quantifier": "every shallow class, every sequence of calls with arbitrary outcomes of the computations inside, including failing ones", "why_tests_cant": "A missing attribute only shows for a particular order of calls and a particular failing step; the tests call fit once and then one method.", "anchors": ["skada/_mapping.py", "skada/_reweight.py", "skada/_subspace.py", "skada/_ot.py", "skada/_self_labeling.py", "skada/_gradual_da.py", "skada/base.py"]}
{"id": "C185", "title": "multi-domain Monge alignment gives every domain the same first two moments", "statement": "With bias=True, MultiLinearMongeAlignmentAdapter maps the samples of every domain it was fitted on, source or target, to samples with the same mean and the same covariance. With bias=False the second moments of all the domains agree. With a single source domain, the rows of that domain come back unchanged.", "quantifier": "every number of source and target domains, every data with non-singular covariances", "why_tests_cant": "Agreement of means and covariances of all the domains is an algebraic identity about matrix square roots; a test compares floating point moments of one data set.", "anchors": ["skada/_mapping.py:MultiLinearMongeAlignmentAdapter"]}
{"id": "C186", "title": "when the domains already agree, nothing is adapted", "statement": "Sources and targets with equal covariances: CORAL returns the sources only centred; with assume_centered=True and equal second moments it returns them as they are. Domains with the same mean and covariance: multi-domain Monge alignment leaves every row as it is. Targets that are the sources in another order: density weights are all one, KMM reaches a discrepancy of zero, ImportanceWeightedScorer scores the sources with equal weights, and OT label propagation gives each target the label of its copies among the sources. A domain classifier that cannot tell the sources apart: discriminator weights are all one.", "quantifier": "every data set meeting the stated agreement, any order and number of samples, rows seen in fit or not", "why_tests_cant": "Being the identity is a statement over all rows and data sets; a test can only compare a few arrays up to a tolerance.", "anchors": ["skada/_mapping.py:CORALAdapter", "skada/_mapping.py:MultiLinearMongeAlignmentAdapter", "skada/_reweight.py:DensityReweightAdapter", "skada/_reweight.py:DiscriminatorReweightAdapter", "skada/_reweight.py:KMMReweightAdapter", "skada/_ot.py:OTLabelPropAdapter", "skada/metrics.py:ImportanceWeightedScorer"]}
{"id": "C187", "title": "alignment does not depend on how the features are measured together", "statement": "Turning, mirroring, uniformly scaling and shifting all the samples before alignment gives the aligned samples turned, mirrored, scaled and shifted in the same way. CORAL: sources and targets may even be shifted differently, and the aligned sources and the centred targets are turned and scaled; with assume_centered=True this holds without the shift. Multi-domain Monge alignment with bias=True: the same for the samples of every domain, those given to fit and new ones.", "quantifier": "every data set with non-singular source covariances, every orthogonal matrix, positive scale and shift, any number of samples, features and domains", "why_tests_cant": "Commuting with every rotation of the feature space is a statement about infinitely many data sets and about square roots of matrices; tests compare floating point output for one data set.", "anchors": ["skada/_mapping.py:CORALAdapter", "skada/_mapping.py:MultiLinearMongeAlignmentAdapter"]}
{"id": "C188", "title": "what a check has accepted is accepted again", "statement": "The features, labels and domain labels returned by check_X_domain or check_X_y_domain are accepted again by the same check, and by every check that allows at least as much, and come back unchanged. Domain labels that check_X_y_domain derived from the labels, or received as one number or one entry per sample, also pass check_X_domain.", "quantifier": "every number of samples, every label array, every form of sample_domain, all combinations of the flags", "why_tests_cant": "Pipelines check the same data in every step, each time with other flags; tests call a check once.", "anchors": ["skada/utils.py:check_X_domain", "skada/utils.py:check_X_y_domain"]}
{"id": "C189", "title": "the final estimator is asked about the features it was trained on", "statement": "Predicting the training source samples with a fitted pipeline hands its final estimator exactly the feature rows it received for them during fit, whatever routing parameters the prediction is given.", "quantifier": "every sequence of steps with shared estimators, every data set and domain layout, every prediction parameter", "why_tests_cant": "Training and prediction take different paths through containers, masks and routed parameters; only an induction over the steps relates them for every pipeline.", "anchors": ["skada/base.py:Shared", "skada/_pipeline.py:make_da_pipeline"]}
{"id": "C190", "title": "giving every sample several times changes nothing", "statement": "Giving every sample of a domain the same number of times (another number for another domain is fine) changes neither the fitted CORAL maps, nor the Gaussian reweighting densities, nor the multi-domain Monge maps (covariances empirical or shrunk by a number), nor the entropy (mean) and MaNo scores, nor the DAN loss with given bandwidths.", "quantifier": "every data set, every number of copies per domain, every sample-wise predictor", "why_tests_cant": "Whether an estimator depends on the empirical distribution or on the sample size (n - 1 instead of n, a sum instead of a mean) shows on no single data set with one size.", "anchors": ["skada/_mapping.py:CORALAdapter", "skada/_mapping.py:MultiLinearMongeAlignmentAdapter", "skada/_reweight.py:GaussianReweightAdapter", "skada/utils.py", "skada/metrics.py:PredictionEntropyScorer", "skada/metrics.py:MaNoScorer", "skada/deep/losses.py:dan_loss"]}
{"id": "C191", "title": "leaving an argument out means its documented default", "statement": "Leaving an argument of a constructor out builds the same object as giving the default named in the documentation of the class, whatever the other arguments; when no estimator is given the documented one is used; qp_solve without x0 starts from the documented vector of ones.", "quantifier": "every documented default of the adapters and estimators of the shallow API, every other keyword arguments given", "why_tests_cant": "Tests run with the defaults and see whatever they are; that a default is the documented one has to be compared argument by argument, for every combination of the others.", "anchors": ["skada/_reweight.py", "skada/_mapping.py", "skada/_subspace.py", "skada/_ot.py", "skada/_self_labeling.py:DASVMClassifier", "skada/utils.py:qp_solve"]}
{"id": "C192", "title": "the clusters of CAN are the classes", "statement": "At the beginning of every epoch CAN clusters the target features starting from the source classes. If every target sample makes a smaller angle with the mean direction of its class than with those of the other classes, both among the source samples and among the target samples, then the clustering gives every target sample the number of its class, after at most two iterations - although the target labels are never used.", "quantifier": "every number of classes and samples, every features, every target classes that satisfy the separation condition", "why_tests_cant": "That cluster numbers stay class numbers is a matter of the interplay of three functions (centroids, assignment, update); a test sees one data set.", "anchors": ["skada/deep/callbacks.py:ComputeSourceCentroids", "skada/deep/utils.py:SphericalKMeans", "skada/deep/_divergence.py:CAN"]}
{"id": "C193", "title": "optimal transport methods follow a recalibration of the features", "statement": "If the target samples are the source samples, in any order, with every feature multiplied by a positive factor and shifted (another unit, a recalibrated sensor), then with uniform weights and an exact solver for the squared Euclidean cost: label propagation gives every target sample the label of the source sample it is a copy of, for classes and for continuous labels, and the optimal transport mapping sends every source sample to its recalibrated copy and keeps the target samples.", "quantifier": "every number of samples and features, every data set, order, positive factors and shifts, every labels (equal source samples having equal labels)", "why_tests_cant": "That the cheapest coupling is the right one is a theorem about all couplings of all data sets; a test tries one.", "anchors": ["skada/_ot.py:OTLabelPropAdapter.fit_transform", "skada/_mapping.py:BaseOTMappingAdapter.fit_transform", "skada/_mapping.py:OTMappingAdapter"]}
{"id": "C194", "title": "KLIEP maximises the likelihood of the targets", "statement": "When KLIEPReweightAdapter.fit returns without the warning that the maximum number of iterations was reached, its coefficients maximise, up to the tolerance, the log-likelihood of the target samples among the non-negative coefficients whose weights average to one on the sources. The iteration follows the gradient of this likelihood and stops at the first step that changes it by less than tol.", "quantifier": "every data set, bandwidth, tolerance, number of iterations and draw of the centres", "why_tests_cant": "Tests check that the weights are non-negative and have the right shape; whether they are the best ones is a statement about all coefficients.", "anchors": ["skada/_reweight.py:KLIEPReweightAdapter._weights_optimization", "skada/_reweight.py:KLIEPReweightAdapter.fit"]}
{"id": "C195", "title": "MMDLSConS minimises the MMD with a Gaussian kernel", "statement": "MMDLSConSMappingAdapter.fit minimises the squared maximum mean discrepancy, for the Gaussian kernel of parameter gamma, between the moved sources and the targets, plus reg_m times the mean distance of the map from the identity; the sources are weighted by a regression, of parameter reg_k, on the kernel matrix of the labels. With class labels every class has its own scale and shift and the search starts from the identity.", "quantifier": "every data set, labels, sizes, gamma, reg_k, reg_m and every candidate map", "why_tests_cant": "Tests check shapes and that accuracy does not drop on one data set; which function is minimised shows only in a comparison of all maps on all data sets.", "anchors": ["skada/_mapping.py:MMDLSConSMappingAdapter._mapping_optimization", "skada/_mapping.py:MMDLSConSMappingAdapter.fit"]}
{"id": "C196", "title": "every documented argument has an effect", "statement": "Every constructor parameter of the shallow estimators, adapters, subsamplers and selectors can change something a user sees: what a method returns or an attribute of the fitted object. The same holds for the documented arguments of the data set generators; in particular with test_time=True a multi-domain Monge alignment maps target domains that were not seen in fit, and center moves the distribution of the shifted data sets.", "quantifier": "every parameter of 32 classes, every sequence of method calls and set_params, whatever the computations of the methods are", "why_tests_cant": "A test compares two values of one parameter in one scenario; that a parameter is dead in every history, or that none is, is a statement about all paths through all methods.", "anchors": ["skada/_mapping.py:MultiLinearMongeAlignmentAdapter", "skada/_ot.py:JCPOTLabelPropAdapter", "skada/datasets/_samples_generator.py:make_shifted_datasets", "skada/datasets/_samples_generator.py:make_variable_frequency_dataset"]}
{"id": "C197", "title": "parameters set on a fitted estimator wait for the next fit", "statement": "After set_params on a fitted estimator the methods that do not fit return what they returned before: predictions, transformed data and weights belong to the last fit, and the new value counts from the next fit on.", "quantifier": "every parameter of 32 classes, every state of the object, every sequence of non-fitting calls and set_params", "why_tests_cant": "Tests fit after setting parameters; which parameters leak into an already fitted object depends on all reads in all methods.", "anchors": ["skada/_subspace.py:TransferComponentAnalysisAdapter.transform", "skada/_mapping.py:CORALAdapter.transform", "skada/_reweight.py:KMMReweightAdapter", "skada/base.py", "skada/_ot.py"]}
{"id": "C198", "title": "aligning twice is aligning once", "statement": "An alignment that has done its work leaves nothing to do: fitting CORAL, or a multi-domain linear Monge alignment, on data the same method has already aligned gives a mapping that returns every row unchanged.", "quantifier": "all source and target data with invertible covariances, every number of domains and features, every new row", "why_tests_cant": "A test aligns one data set twice and compares up to a tolerance; that the second mapping is exactly the identity for all data is algebra with matrix square roots.", "anchors": ["skada/_mapping.py:CORALAdapter", "skada/_mapping.py:MultiLinearMongeAlignmentAdapter"]}
{"id": "C199", "title": "selectors agree where they overlap", "statement": "SelectSourceTarget gives its first estimator exactly what SelectSource would give it and its second exactly what SelectTarget would; PerDomain on data of a single domain makes exactly the call Shared makes; and SelectSource on source-only data (SelectTarget on target-only data) makes the call Shared makes, or fails as Shared fails.", "quantifier": "all features, labels, metadata and domain labels, all routing requests, all metadata produced by earlier steps, transformers and predictors", "why_tests_cant": "The selectors have separate implementations of routing, masking and filtering; tests exercise each with its own data and compare none of them with another.", "anchors": ["skada/base.py:SelectSourceTarget", "skada/base.py:_BaseSelectDomain", "skada/base.py:PerDomain", "skada/base.py:Shared"]}
{"id": "C200", "title": "exchanging source and target inverts the alignment", "statement": "Swapping the roles of the two data sets undoes an alignment: mapping source rows towards the target with CORAL or with a linear Monge alignment, and mapping the result with the same method fitted the other way round, gives back the original rows (for CORAL without assume_centered up to the two means it does not add back).", "quantifier": "all source and target data with invertible covariances, every number of features, every new row, centred or not, with or without bias", "why_tests_cant": "A test inverts one example up to a tolerance; that the two mappings are exact inverses for all data needs the algebra of matrix square roots.", "anchors": ["skada/_mapping.py:CORALAdapter", "skada/_mapping.py:MultiLinearMongeAlignmentAdapter"]}
{"id": "C201", "title": "a fraction of a data set is honoured in floating point", "statement": "Wherever a fraction of a data set is asked for (under_sampling of the shuffle splits, the ratio of a target shift, alpha of gradual adaptation) the computed count is the integer part of the fraction times the size; it never exceeds the size, is the size for 1 and zero for 0, grows with the fraction, and the sample it asks for exists.", "quantifier": "all sizes below 2^53, all fractions between 0 and 1, binary64 arithmetic with rounding to nearest even", "why_tests_cant": "int(n * fraction) is computed in floating point, and which sizes are off by one depends on the rounding of both the fraction and the product; tests use a few round numbers.", "anchors": ["skada/model_selection.py:StratifiedDomainShuffleSplit", "skada/datasets/_samples_generator.py:make_shifted_datasets", "skada/datasets/_mnist_usps.py:load_mnist_usps", "skada/_gradual_da.py:GradualEstimator"]}
{"id": "C202", "title": "the constrained optimiser and normalised weights survive rounding", "statement": "In floating point the result of frank_wolfe still has only non-negative entries and meets its linear constraint up to a relative error of a few roundings per iteration (less than 1e-9 for up to a million iterations); normalised importance weights lie in [0, 1] and sum to one up to one rounding per level of the summation.", "quantifier": "all costs, bounds, gradients, starting points and iteration counts; all non-negative weights; every order in which numpy may add", "why_tests_cant": "Rounding errors accumulate over iterations; a test observes one run and cannot bound the error for every input and every summation order.", "anchors": ["skada/utils.py:frank_wolfe", "skada/metrics.py:ImportanceWeightedScorer"]}
{"id": "C203", "title": "gradual interpolation in floating point reaches the target", "statement": "The intermediate samples of gradual adaptation are the documented interpolation up to three roundings, and the samples of the last step are the target samples.", "quantifier": "all step counts and steps, all source and target values, binary64 arithmetic", "why_tests_cant": "Whether (0*x + n*y)/n equals y depends on the rounding of n*y for every y; tests compare up to a tolerance.", "anchors": ["skada/_gradual_da.py:GradualEstimator"]}
{"id": "C204", "title": "density weights are finite numbers in floating point", "statement": "The sample weights computed from two density estimates, and those of the importance weighted score, are finite non-negative floating point numbers (at most one for the score), although they are exponentials of differences of log densities; neither overflow nor underflow, nor the division by the mean or the sum of the weights, turns one into nan or infinity.", "quantifier": "all kernels, all source and target samples (up to 2^50), every order in which numpy may add, samples seen in fitting and new ones, binary64 arithmetic with infinities and nan", "why_tests_cant": "Overflow needs samples far from the fitted ones and depends on the sum over all samples; tests use data of moderate size around the origin.", "anchors": ["skada/_reweight.py:DensityReweightAdapter", "skada/metrics.py:ImportanceWeightedScorer"]}
{"id": "C205", "title": "soft neighbourhood density is a number for every temperature", "statement": "The score of SoftNeighborhoodDensity is a finite number of the right sign for every positive temperature and all predictions.", "quantifier": "all temperatures, numbers of samples and predicted probabilities, every order of summation, binary64 arithmetic with infinities and nan", "why_tests_cant": "The entropy is computed as -sum p log p of softmax values that underflow to zero for small temperatures; tests use the default temperature only.", "anchors": ["skada/metrics.py:SoftNeighborhoodDensity"]}
{"id": "C206", "title": "keeping all components is no more than centring and rotating", "statement": "With n_components left at its default, subspace alignment keeps every direction: distances between two samples of the same domain are unchanged, and the distance between a source and a target sample is that of the two samples after centring each domain separately; transfer subspace learning keeps all distances. Methods that depend on distances only therefore see nothing but a shift of the means.", "quantifier": "all data sets, all features counts and all orthonormal principal directions, source and target, training and new samples", "why_tests_cant": "That a product of learned matrices is a rotation is a statement about all data; a test compares one fitted matrix.", "anchors": ["skada/_subspace.py:SubspaceAlignmentAdapter", "skada/_subspace.py:TransferSubspaceLearningAdapter"]}
{"id": "C207", "title": "with exact densities importance weighting turns source averages into target averages", "statement": "If the two estimated densities (or the estimated probability of being a target sample) are exact, the weights of the reweighting adapters make the weighted average of any function over the source samples equal to its average over the target samples, and the importance weighted score of an averaged loss is the loss on the target.", "quantifier": "all source and target samples whose values the sources cover, all functions of a sample, every exact density estimate", "why_tests_cant": "Unbiasedness is a statement about all functions and all data; a test checks the order of a few weights.", "anchors": ["skada/_reweight.py:DensityReweightAdapter", "skada/_reweight.py:GaussianReweightAdapter", "skada/_reweight.py:DiscriminatorReweightAdapter", "skada/metrics.py:ImportanceWeightedScorer"]}
{"id": "C208", "title": "the regularisation of CORAL goes from matching covariances to matching the overall spread", "statement": "reg=None and reg=0 match the whole covariance; reg=1 multiplies all sources, relative to their mean, by one number, after which the variances are on average those of the targets; reg=\"auto\", when the data call for full shrinkage, rescales every feature on its own by the ratio of the standard deviations.", "quantifier": "all data sets with varying sources, every number of features and samples, both settings of assume_centered, every row seen in fitting or new", "why_tests_cant": "A test fits one value of reg on one data set; the two ends of the scale are statements about matrix square roots for all data.", "anchors": ["skada/_mapping.py:CORALAdapter", "skada/_utils.py:_estimate_covariance"]}
{"id": "C209", "title": "every fold can be trained on and scored", "statement": "The training part and the test part of every fold returned by a domain-aware splitter contain at least one source sample and at least one target sample, whenever the data contain both and the splitter accepts the request.", "quantifier": "all domain labellings, all sizes the splitter accepts, every number of folds and every outcome of the random generator", "why_tests_cant": "A test looks at a few seeds on balanced data; a fold without targets needs an unbalanced data set and shows only when a scorer receives it.", "anchors": ["skada/model_selection.py:SourceTargetShuffleSplit", "skada/model_selection.py:DomainShuffleSplit", "skada/model_selection.py:LeaveOneDomainOut", "skada/model_selection.py:StratifiedDomainShuffleSplit"]}
{"id": "C210", "title": "transporting labels keeps their average and the shares of the classes", "statement": "The regression labels that OTLabelProp gives to the target samples, and those JDOT fits its estimator on, have under the target weights the same average as the source labels under the source weights, and are never spread more widely around any value; for class labels the masses from which OTLabelProp picks a class give every class exactly the weight of its source samples and every target its own weight.", "quantifier": "all data sets, labels, positive target weights and transport plans with the right marginals", "why_tests_cant": "A test compares two averages on one data set up to a tolerance; that transport conserves mass is a statement about every plan, and a wrong normalisation can cancel on balanced data.", "anchors": ["skada/_ot.py:OTLabelPropAdapter.fit_transform", "skada/_ot.py:solve_jdot_regression"]}
{"id": "C211", "title": "a trade-off set to one of its ends switches the other part off", "statement": "JDOT with alpha=0 uses the transport plan of the features alone and trains its estimator on exactly the labels OTLabelProp gives to the targets, stopping after two iterations without a warning; with alpha=1 the features play no part in the transport; DomainShuffleSplit with under_sample_size=1 drops no sample and gives the folds SourceTargetShuffleSplit documents.", "quantifier": "all data sets, weights, estimators, positive tolerances, iteration limits of at least two and random outcomes", "why_tests_cant": "A test runs one end on one data set; that nothing of the other part is left is a statement about all data.", "anchors": ["skada/_ot.py:solve_jdot_regression", "skada/_ot.py:solve_jdot_classification", "skada/_ot.py:OTLabelPropAdapter.fit_transform", "skada/model_selection.py:DomainShuffleSplit"]}
{"id": "C212", "title": "a refit that fails leaves the fitted estimator usable", "statement": "If fitting an already fitted estimator raises an exception, at whatever point, the estimator goes on answering as before the attempt, or, when only the transformation following the fit failed, as after the new fit; it never answers from a mixture of the two data sets.", "quantifier": "all shallow adapters and estimators and the selectors, all histories, all data, all points at which fit can raise", "why_tests_cant": "The failures happen inside other libraries at many points; a test provokes one of them on one class and compares one answer.", "anchors": ["skada/_mapping.py:CORALAdapter.fit", "skada/_mapping.py:BaseOTMappingAdapter.fit", "skada/_reweight.py:GaussianReweightAdapter.fit", "skada/_reweight.py:KMMReweightAdapter.fit", "skada/_reweight.py:MMDTarSReweightAdapter.fit", "skada/_subspace.py:SubspaceAlignmentAdapter.fit", "skada/_ot.py:JDOTRegressor.fit", "skada/base.py:Shared"]}
{"id": "C213", "title": "no model is ranked above one that is certain and right", "statement": "For every scorer with its default direction, a classifier that gives every sample it is scored on its true class with certainty never gets a lower score than any other classifier, in particular not a lower score than one that answers the same class for everything.", "quantifier": "all scorers, all data sets, all competing models and their probabilities, all parameters of the scorers", "why_tests_cant": "Tests check that scores are numbers or compare two models on one data set; a ranking is a statement about all pairs of models.", "anchors": ["skada/metrics.py:SupervisedScorer", "skada/metrics.py:ImportanceWeightedScorer", "skada/metrics.py:PredictionEntropyScorer", "skada/metrics.py:SoftNeighborhoodDensity", "skada/metrics.py:DeepEmbeddedValidation", "skada/metrics.py:CircularValidation", "skada/metrics.py:MixValScorer", "skada/metrics.py:MaNoScorer"]}
{"id": "C214", "title": "a larger budget or more freedom never gives a worse result", "statement": "Fitting the same data with more iterations, a smaller tolerance, more random restarts, more candidate bandwidths or looser bounds on the weights never ends with a worse value of the objective the method optimises: the inertia of the clusters, the transport objective of JDOT, the held-out likelihood of KLIEP's bandwidth and the discrepancy KMM minimises.", "quantifier": "all data sets, all pairs of settings of which one is at least as generous as the other, all initialisations, all estimators and solvers that keep their contracts, any numbers of iterations", "why_tests_cant": "A test compares two settings on one data set; that the more generous one is never worse is a statement about all data sets and all pairs of settings.", "anchors": ["skada/deep/utils.py:SphericalKMeans", "skada/_reweight.py:KMMReweightAdapter", "skada/_reweight.py:KLIEPReweightAdapter", "skada/utils.py:frank_wolfe", "skada/_ot.py:solve_jdot_regression", "skada/_ot.py:solve_jdot_classification"]}
{"id": "C215", "title": "every value of a label can be used", "statement": "A labelled source sample takes part in training whatever value its label has, and a regression is treated as one whether or not its labels happen to be whole numbers: no value that a user may legitimately give is taken for 'label hidden' or 'this is a target', and validating a regressor does not depend on how its labels are rounded.", "quantifier": "all data sets, all label vectors (classes or numbers, -1 and negative values included), all domain labels, all wrapped estimators and forward/backward models of CircularValidation", "why_tests_cant": "Tests use class labels 0 and 1 and random real targets; the reserved values appear only for particular labels.", "anchors": ["skada/_utils.py:_find_y_type", "skada/_utils.py:_remove_masked", "skada/_utils.py:_check_y_masking", "skada/base.py:Shared", "skada/utils.py:check_X_y_domain", "skada/metrics.py:CircularValidation"]}
{"id": "C216", "title": "the unit and the origin of a regression target do not matter", "statement": "Expressing a regression target in another unit or from another origin (degrees Celsius or Fahrenheit, metres or half metres) changes nothing but the unit: labels propagated to the target and predictions of a JDOT regressor are the same quantities expressed in the new unit, whatever the unit chosen.", "quantifier": "all data sets, all positive scale factors and offsets, all sample weights, transport solvers that do not depend on the unit of the cost, estimators that follow an affine change of their labels, tolerances and numbers of iterations", "why_tests_cant": "Tests fix one scale for the labels and never fit the same data twice in two units; whether a plan changes with the unit depends on the whole iteration.", "anchors": ["skada/_ot.py:OTLabelPropAdapter", "skada/_ot.py:JDOTRegressor", "skada/_ot.py:solve_jdot_regression", "skada/_utils.py:_find_y_type"]}
{"id": "C217", "title": "a sample of weight zero counts as absent", "statement": "Giving a source sample the weight zero has the same effect as leaving it out: the labels propagated to the target, the estimator fitted by JDOT and the loss of a deep model are the same.", "quantifier": "all data sets with sample weights, all subsets of the sources of weight zero, transport solvers that ignore sources without mass, all tolerances, numbers of iterations and batches", "why_tests_cant": "Tests check that weights are accepted, not that a zero weight removes a sample; the effect of such a sample passes through a normalisation of all distances or of all losses.", "anchors": ["skada/_ot.py:OTLabelPropAdapter", "skada/_ot.py:solve_jdot_regression", "skada/deep/base.py:BaseDANetwork"]}
{"id": "C218", "title": "Monge alignment moves the samples no farther than needed", "statement": "MultiLinearMongeAlignment moves the samples of every domain as little as the result allows: any other arrangement of the same number of rows with the mean and covariance that the aligned rows have (with bias=False: with their second moments) is farther from the given rows in the sum of squared distances.", "quantifier": "all numbers of domains, samples and features, all samples with non-degenerate covariances, all barycentre solvers returning non-degenerate covariances, exact eigensolvers, all competing arrangements of the rows", "why_tests_cant": "A test can compare the aligned rows with a few other arrangements; being the closest of all of them ranges over infinitely many.", "anchors": ["skada/_mapping.py:MultiLinearMongeAlignmentAdapter", "skada/_mapping.py:BaseOTMappingAdapter", "skada/_mapping.py:CORALAdapter"]}
{"id": "C219", "title": "linear alignment undoes a stretch of the target", "statement": "If the target samples are the source samples, in any order, after a stretch (a symmetric positive definite matrix, such as a positive factor for every feature) and a shift, then linear alignment undoes it: multi-domain Monge alignment with one source domain takes the copy of any row, seen in fit or not, back to the row itself, and CORAL without regularisation adapts a source row and its copy in the target to the same point.", "quantifier": "all numbers of samples and features, all sources with a non-degenerate covariance, all symmetric positive definite matrices, shifts and orders of the rows, all rows adapted later, all exact eigensolvers", "why_tests_cant": "Tests use one generated shift and check that an accuracy improves; that the shift is undone exactly for every stretch, and for which ones it is not, is a statement about all matrices.", "anchors": ["skada/_mapping.py:MultiLinearMongeAlignmentAdapter", "skada/_mapping.py:CORALAdapter"]}
{"id": "C220", "title": "a constant feature changes nothing", "statement": "Adding a feature that has the same value for every sample, source and target, in fit and in later calls, changes no weight of the density, KLIEP, KMM, nearest-neighbour and MMDTarS adapters, no feature computed by TCA or TJM and no label propagated by optimal transport.", "quantifier": "all data sets, numbers of features, constants, bandwidths, random draws, solvers and option values", "why_tests_cant": "A test adds one constant to one data set; the constant enters kernels and distances through the number of features as well as through the values.", "anchors": ["skada/_reweight.py:KMMReweightAdapter", "skada/_reweight.py:KLIEPReweightAdapter", "skada/_reweight.py:NearestNeighborReweightAdapter", "skada/_reweight.py:DensityReweightAdapter", "skada/_reweight.py:MMDTarSReweightAdapter", "skada/_ot.py:OTLabelPropAdapter", "skada/_subspace.py:TransferComponentAnalysisAdapter"]}
{"id": "C221", "title": "whole numbers may be stored as integers or as floats", "statement": "Storing whole-number features or labels as integers instead of floats changes no result: splitting and merging, optimal-transport mapping, CORAL, subspace alignment, transfer subspace learning, MMDLSConS and multi-domain Monge alignment return the same numbers, circular validation the same score, and packing a data set gives labels of the same kind, classes staying classes.", "quantifier": "all arrays of whole numbers of any shape, all domain labels, all fitted transports, matrices and coefficients, all estimators and scorers, all data sets and options of pack", "why_tests_cant": "Tests use float features and integer classes; numpy casts silently when a float is assigned into an integer array, so a wrong result looks like any other array of numbers.", "anchors": ["skada/utils.py:source_target_merge", "skada/_mapping.py:OTMappingAdapter", "skada/_mapping.py:MultiLinearMongeAlignmentAdapter", "skada/_mapping.py:CORALAdapter", "skada/_mapping.py:MMDLSConSMappingAdapter", "skada/_subspace.py:SubspaceAlignmentAdapter", "skada/metrics.py:CircularValidation", "skada/datasets/_base.py:DomainAwareDataset"]}
{"id": "C222", "title": "domain labels can be written in any of the documented ways", "statement": "Wherever sample_domain is accepted, the documented forms mean the same: a list or tuple of labels, an array of integers or an array of floats holding the same whole numbers are treated alike, a single number stands for an array repeating it, and every integer can serve as a label: non-negative ones are sources, negative ones targets, different ones different domains.", "quantifier": "all sequences of integers as domain labels, all numbers of samples and options of the checks, all arrays being split or merged", "why_tests_cant": "Tests pass small numpy integer arrays; labels go through a conversion to 32-bit integers and through numpy indexing, whose effect on other forms and sizes no finite set of labels shows.", "anchors": ["skada/utils.py:check_X_domain", "skada/utils.py:check_X_y_domain", "skada/utils.py:extract_source_indices", "skada/utils.py:extract_domains_indices", "skada/utils.py:source_target_split", "skada/utils.py:source_target_merge"]}
{"id": "C223", "title": "a pipeline built in stages is the pipeline built at once", "statement": "Passing a pipeline built by make_da_pipeline as a step of another make_da_pipeline call, with further estimators before or after it, gives the same pipeline as passing all the estimators in one call: the same selectors around the same estimators, hiding target labels at the same steps, the same last step and the same step names.", "quantifier": "all sequences of estimators before, inside and after the nested pipeline, of any lengths, both default selectors", "why_tests_cant": "Tests nest one or two fixed pipelines; the label masking and the numbering of repeated names are recomputed by every call, so their agreement depends on the whole sequence of estimators.", "anchors": ["skada/_pipeline.py:make_da_pipeline", "skada/_pipeline.py:_wrap_with_selectors", "skada/_pipeline.py:_name_estimators"]}
{"id": "C224", "title": "equal sample weights are no sample weights", "statement": "Giving every source sample one common positive weight and every target sample one common positive weight has the same effect as giving no weights: the labels propagated to the target, the estimator fitted by JDOT and the training loss of a deep model are the same.", "quantifier": "all data sets and domain labels, all pairs of positive weights, all transport solvers, base estimators, tolerances and numbers of iterations, all batches", "why_tests_cant": "With and without weights the code runs different branches; tests compare them on one data set at most, while equality has to hold for every number of samples on each side.", "anchors": ["skada/_ot.py:OTLabelPropAdapter", "skada/_ot.py:JDOTClassifier", "skada/_ot.py:JDOTRegressor", "skada/_ot.py:solve_jdot_classification", "skada/_ot.py:solve_jdot_regression", "skada/deep/base.py:BaseDANetwork.get_loss"]}
{"id": "C225", "title": "turning a knob one way acts one way", "statement": "Numeric options act in one direction: raising the temperature of SoftNeighborhoodDensity never lowers the density it reports, raising the power p of MaNoScorer never lowers its value, raising thr_weights of JDOTClassifier only removes samples from the training set built from a transport plan, and raising alpha of GradualEstimator only adds interpolated pairs.", "quantifier": "all estimators, data sets and domain labels, all pairs of option values in the documented range, all transport plans", "why_tests_cant": "Tests run one or two values of an option on one data set; a direction is a statement about all pairs of values on all data.", "anchors": ["skada/metrics.py:SoftNeighborhoodDensity", "skada/metrics.py:MaNoScorer", "skada/_ot.py:get_data_jdot_class", "skada/_gradual_da.py:GradualEstimator"]}
{"id": "C226", "title": "a fitted adapter treats close samples alike", "statement": "Once fitted, an adapter treats two samples that lie close together alike: the weights, coordinates or aligned rows it gives them differ by at most a constant, fixed by the fit, times the distance between the samples.", "quantifier": "all fits of the KLIEP, KMM and nearest-neighbour weights, of transfer component analysis and transfer joint matching with the Gaussian kernel, of CORAL and of the multi-linear Monge alignment, and all pairs of new samples", "why_tests_cant": "A test compares one pair of samples; a bound with one constant for all pairs at all distances cannot be sampled, and a jump can sit between any two samples.", "anchors": ["skada/_reweight.py:KLIEPReweightAdapter", "skada/_reweight.py:KMMReweightAdapter", "skada/_reweight.py:NearestNeighborReweightAdapter", "skada/_subspace.py:TransferComponentAnalysisAdapter", "skada/_subspace.py:TransferJointMatchingAdapter", "skada/_mapping.py:CORALAdapter", "skada/_mapping.py:MultiLinearMongeAlignmentAdapter"]}
{"id": "C227", "title": "training a deep net uses the samples it is given", "statement": "fit of a deep net trains on the samples it is given: every epoch goes through all the samples of both sides up to less than one batch of each, samples set aside for validation have no influence on the parameters, and the net can be trained with the default settings or with part of the samples held out by train_split.", "quantifier": "all data sets with both sides, batch sizes, numbers of epochs, permutations drawn, training steps, and all ways of giving train_split", "why_tests_cant": "A test trains one net on one data set; samples never visited, or visited although held out, change no shape and raise no error.", "anchors": ["skada/deep/base.py:DomainAwareNet", "skada/deep/base.py:DomainBalancedSampler", "skada/deep/base.py:DomainOnlySampler"]}
{"id": "C228", "title": "an estimated risk follows the loss", "statement": "A target risk estimated without target labels follows the loss it estimates: a loss that is the same number on every sample is given that number as risk, adding a constant to the loss or multiplying it by a factor does the same to the estimate, and a model whose loss is larger on every sample is not given a smaller risk.", "quantifier": "ImportanceWeightedScorer and DeepEmbeddedValidation, all losses, data sets, domain labels, densities and domain classifiers", "why_tests_cant": "A test compares one estimate with one number; an identity between the estimates of all rescaled losses is a statement about the formula, and violations look like plausible numbers.", "anchors": ["skada/metrics.py:ImportanceWeightedScorer", "skada/metrics.py:DeepEmbeddedValidation"]}
{"id": "C229", "title": "a parameter is read and set by its path", "statement": "In a pipeline built by make_da_pipeline, a parameter at any depth is read from get_params() and set with set_params(step__parameter=...), as a grid search does: the path leads to the parameter as if the selectors around the estimators were not there, setting it changes this parameter and nothing else, and a path that leads nowhere is refused.", "quantifier": "all pipelines, selectors and estimators nested to any depth, all paths and all values", "why_tests_cant": "The set of nestings and paths is unbounded; a value that lands on the wrong object raises no error, a grid search just compares other models than the ones it reports.", "anchors": ["skada/base.py:BaseSelector.get_params", "skada/base.py:BaseSelector.set_params", "skada/_pipeline.py:make_da_pipeline"]}
{"id": "C230", "title": "the deep discrepancies do not depend on the frame of the features", "statement": "The domain discrepancies of the deep methods compare how the features of the two batches lie: expressing all features of both batches in another orthonormal frame with another origin leaves the loss as it is (for the contrastive discrepancy the centroids are expressed in the same frame), and a change of unit changes it by the announced power.", "quantifier": "DeepCORAL, DAN, DeepJDOT and CDD losses, all batches, dimensions, orthogonal matrices, shifts and units", "why_tests_cant": "An invariance under all rotations is an identity over a continuum; a loss that depends on the axes still trains and returns plausible numbers.", "anchors": ["skada/deep/losses.py:deepcoral_loss", "skada/deep/losses.py:dan_loss", "skada/deep/losses.py:deepjdot_loss", "skada/deep/losses.py:cdd_loss"]}
{"id": "C231", "title": "a target domain of a single sample is adapted to", "statement": "When the target domain has one sample the methods still work, and the result does not depend on where the sample lies: label propagation and JDOT give it the weighted average of the source labels or the class with the largest weight among the sources, CORAL moves all sources onto it, reweighting gives weights, and soft neighbourhood density scores 0.", "quantifier": "OTLabelProp, JDOTRegressor, JDOTClassifier, CORAL with every reg, GaussianReweight with every reg, SoftNeighborhoodDensity; all sources, labels, weights, metrics and solvers", "why_tests_cant": "The smallest target domain is a boundary of every formula; tests use dozens of samples, and what a method does there must hold for all source domains.", "anchors": ["skada/_ot.py:solve_jdot_regression", "skada/_ot.py:solve_jdot_classification", "skada/_ot.py:OTLabelPropAdapter", "skada/_mapping.py:CORALAdapter", "skada/_reweight.py:GaussianReweightAdapter", "skada/metrics.py:SoftNeighborhoodDensity"]}
{"id": "C232", "title": "source labels of a single class are enough", "statement": "When all source samples have the same class, the methods that use source labels do what this leaves to do, without an error: label propagation gives every target this class, JDOT fits its classifier on every target once with this class and equal weights, MMDTarS gives all sources the same weight close to 1, and CAN can be trained.", "quantifier": "OTLabelProp with classes, JDOTClassifier with every metric, alpha, tolerance and classifier, MMDTarS, the contrastive loss of CAN; all data, source weights, solvers and clusterings with one cluster", "why_tests_cant": "A degenerate label set is a boundary of every per-class loop and normalisation, and the claim quantifies over all data, weights and classifiers.", "anchors": ["skada/_ot.py:OTLabelPropAdapter", "skada/_ot.py:solve_jdot_classification", "skada/_reweight.py:MMDTarSReweightAdapter", "skada/deep/losses.py:cdd_loss"]}
{"id": "C233", "title": "no method invents a class", "statement": "When the classifier given to a method only predicts classes it was fitted on, the method only predicts source classes: self-labelling (DASVM), gradual adaptation and JDOT give every sample a class of the source samples, and the labels given to target samples by label propagation (OTLabelProp, JCPOT) are source classes.", "quantifier": "DASVMClassifier, GradualEstimator, JDOTClassifier, OTLabelProp and JCPOTLabelProp; all data, class values, weights, transport solvers, metrics, thresholds, iteration limits and classifiers that only predict classes they were fitted on", "why_tests_cant": "The labels go through several rounds of prediction and refitting, transport plans and arg-max steps; a test sees particular class values, usually 0 and 1, for which an index and a class look the same.", "anchors": ["skada/_self_labeling.py:DASVMClassifier", "skada/_gradual_da.py:GradualEstimator", "skada/_ot.py:solve_jdot_classification", "skada/_ot.py:OTLabelPropAdapter", "skada/_ot.py:JCPOTLabelPropAdapter"]}
{"id": "C234", "title": "parameters set in one call are all set, in any order", "statement": "A call of set_params on a domain-aware pipeline with several parameters, as a grid search makes it, gives each of them its value and changes no other parameter, in whatever order they are given; a single parameter is set as by a call of its own. When the call also replaces the estimator of a step, the parameters of this step are set on the new estimator, whichever comes first.", "quantifier": "all pipelines of selectors and estimators, nested to any depth, all sets of parameters that exist and do not contain one another, all values and orders of the arguments; every replacement of the estimator of a step together with a parameter of the new estimator", "why_tests_cant": "A grid search sets arbitrary combinations at once and sorts their names; a lost or misplaced setting changes which model is scored, and the paths and nestings are unbounded.", "anchors": ["skada/base.py:BaseSelector.set_params", "skada/base.py:BaseSelector.get_params", "skada/_pipeline.py:make_da_pipeline"]}
{"id": "C235", "title": "an iteration limit cuts a run short and does nothing else", "statement": "A larger iteration limit continues the same run. JDOTRegressor and JDOTClassifier: a run without the convergence warning is the run of every larger limit, and after the warning a larger limit reports the same losses first. TransferJointMatching: a run of fewer iterations than allowed is the run of every larger limit, and otherwise its objective values are the first ones. Spherical k-means from given centres: a run with n_iter_ below max_iter is the run of every larger limit. KLIEP: if one more iteration leaves the weights as they are, so does every larger limit.", "quantifier": "all data, weights, tolerances, solvers, estimators and pairs of limits, the smaller one at least 1 for JDOT; KLIEP with the same drawn centres", "why_tests_cant": "The limit enters the stopping test, the numbering of the iterations and the initial values; that it does nothing else is a statement about pairs of runs of any length.", "anchors": ["skada/_ot.py:solve_jdot_regression", "skada/_ot.py:solve_jdot_classification", "skada/_subspace.py:TransferJointMatchingAdapter", "skada/deep/utils.py:SphericalKMeans", "skada/_reweight.py:KLIEPReweightAdapter"]}
{"id": "C236", "title": "splitters, samplers and data loaders deliver as many items as they announce", "statement": "The number returned by get_n_splits is the number of splits obtained by iterating over split with the same data, for every splitter. The length of a domain-balanced or one-sided sampler is the number of indices an epoch gives, and the length of their data loaders is the number of batches of an epoch.", "quantifier": "all data, domain labels, sizes, random states and uses of the random generators between two splits; all datasets, batch sizes, modes and orders drawn", "why_tests_cant": "The announced number and the loop are written separately, and an error would need the right combination of sizes, remainders and labels to show.", "anchors": ["skada/model_selection.py:BaseDomainAwareShuffleSplit.get_n_splits", "skada/model_selection.py:LeaveOneDomainOut.get_n_splits", "skada/deep/base.py:DomainBalancedSampler", "skada/deep/base.py:DomainOnlySampler", "skada/deep/base.py:DomainBalancedDataLoader", "skada/deep/base.py:DomainOnlyDataLoader"]}
{"id": "C237", "title": "merges and selections of deep data sets can be done in any order", "statement": "Merging three data sets from the left or from the right gives the same data set. Selecting the sources, the targets, one domain or the labelled samples of a merged data set gives the merge of the selections. Two selections one after the other give the same data set in both orders, a selection repeated or contained in the first one changes nothing more, and selections that exclude each other leave nothing. The same means: samples, labels, domains, weights and sample numbers.", "quantifier": "all data sets whose tensors belong together, all four selections, weights kept or not; for merges that keep the weights, all of the data sets have weights or none has", "why_tests_cant": "Each equation ranges over all pairs or triples of data sets and pairs of operations.", "anchors": ["skada/deep/base.py:DeepDADataset.merge", "skada/deep/base.py:DeepDADataset.select_source", "skada/deep/base.py:DeepDADataset.select_target", "skada/deep/base.py:DeepDADataset.select_domain", "skada/deep/base.py:DeepDADataset.select_with_labels"]}
{"id": "C238", "title": "optimal transport moves the sources among the targets", "statement": "After fit_transform of an optimal-transport mapping, the source rows lie among the target rows: no feature, and no linear combination of features, leaves the range it has on the targets. The sources have the mean of the targets in every feature, and in no direction are they spread more than the targets around any value. The target rows are unchanged.", "quantifier": "all data and domain layouts with both roles, and all transports that send a training source to the barycentre of the targets under a plan whose marginals are uniform, optimal or not", "why_tests_cant": "Range, mean and spread in every direction of every data set; tests look at the score of a classifier.", "anchors": ["skada/_mapping.py:BaseOTMappingAdapter.fit_transform", "skada/_mapping.py:BaseOTMappingAdapter.transform", "skada/_mapping.py:OTMappingAdapter", "skada/_mapping.py:EntropicOTMappingAdapter", "skada/_mapping.py:ClassRegularizerOTMappingAdapter"]}
{"id": "C239", "title": "target scores do not depend on the sources", "statement": "The supervised scorer, the prediction-entropy scorer, soft neighbourhood density, MixVal and MaNo look at the targets only. Two data sets with the same target rows and target domain labels in the same order get the same score, or the same error, for models that answer alike on these rows: sources may be added, removed, relabelled, moved to other domains or placed elsewhere among the rows.", "quantifier": "all pairs of well-formed data sets with the same targets, all models that agree on the target rows, all settings of the scorers, and integer class labels for MixVal and MaNo", "why_tests_cant": "A statement about every choice and arrangement of sources; tests score one data set.", "anchors": ["skada/metrics.py:SupervisedScorer._score", "skada/metrics.py:PredictionEntropyScorer._score", "skada/metrics.py:SoftNeighborhoodDensity._score", "skada/metrics.py:MixValScorer._score", "skada/metrics.py:MaNoScorer._score"]}
{"id": "C240", "title": "with PerDomain what happens in one domain stays there", "statement": "With PerDomain the estimator of a domain is fitted with the rows, labels and parameters of this domain and nothing else: adding, removing or changing other domains, or mixing the rows differently, does not change it, and the domain may as well be alone. The same holds when the labels of the targets are hidden, for transformers and estimators that receive the domain labels. Predictions and transforms of the rows of a domain do not depend on the other domains either.", "quantifier": "all pairs of data sets that agree on a domain, all layouts, labels, routed parameters and estimators", "why_tests_cant": "A statement about pairs of data sets with arbitrary other domains; tests fit one data set.", "anchors": ["skada/base.py:PerDomain.fit", "skada/base.py:PerDomain._route_to_estimator", "skada/base.py:BaseSelector"]}
{"id": "C241", "title": "the two solvers of qp_solve agree", "statement": "On a problem with a positive definite cost, non-negative variables and either one equality or a lower and an upper bound on the same positive combination, qp_solve gives the same answer with solver='scipy' and with solver='frank-wolfe': the minimiser is unique, a value close to the minimum is only taken close to it, and with enough iterations the result of frank-wolfe is as close as wished to that of an exact minimiser, whatever the two starting points are.", "quantifier": "all definite quadratic costs with or without linear term, all positive constraint rows and non-negative bounds, all starting points, all distances", "why_tests_cant": "Unique minimisers and limits over all problems; tests compare the solvers on one problem with a tolerance.", "anchors": ["skada/utils.py:qp_solve", "skada/utils.py:_qp_solve_scipy", "skada/utils.py:_qp_solve_frank_wolfe", "skada/utils.py:frank_wolfe"]}
{"id": "C242", "title": "the iterative methods end by themselves", "statement": "Given enough iterations a run is ended by its stopping rule and not by its limit. Spherical k-means from given centres needs at most (number of centres) to the power (number of samples), plus one, iterations, for every tolerance including zero, because it never assigns the samples in the same way twice; with a larger max_iter the fit is always the same and inertia_ belongs to the labels predict gives. JDOTRegressor and JDOTClassifier with a positive tolerance end without the convergence warning from some n_iter_max on, and every larger limit gives the same result.", "quantifier": "all data sets and initial centres (samples and non-zero sums of directions not shorter than 1e-8), all tolerances; JDOT: all estimators and solvers that keep their contracts, all weights, alpha in [0, 1], non-negative distances; thr_weights zero or small against the tolerance", "why_tests_cant": "A statement about runs of every length on every data set; a test sees one run, and a cycle can appear on another data set.", "anchors": ["skada/deep/utils.py:SphericalKMeans", "skada/_ot.py:solve_jdot_regression", "skada/_ot.py:solve_jdot_classification", "skada/_ot.py:JDOTRegressor", "skada/_ot.py:JDOTClassifier"]}
{"id": "C243", "title": "adapting does not move the domains apart", "statement": "Fitting an adapter leaves the domains at least as close, in the distance the adapter works with, as they were. The weighted source mean of the KMM reweighter in the feature space of its kernel is no farther from the target mean than with equal weights; the aligned source basis of subspace alignment is no farther from the target basis than the source basis; after CORAL the covariance of the adapted sources is no farther from the target covariance than before; after the OT mapping the cost of transporting the sources to the targets is no larger than before.", "quantifier": "all data sets, kernels that are inner products, B of at least 1, all subspace sizes, all shrinkage values, exact solvers", "why_tests_cant": "An inequality for every data set; a test shows it on the data set it draws, usually one where the shift is large.", "anchors": ["skada/_reweight.py:KMMReweightAdapter", "skada/_subspace.py:SubspaceAlignmentAdapter", "skada/_mapping.py:CORALAdapter", "skada/_mapping.py:OTMappingAdapter"]}
{"id": "C244", "title": "groups of unrelated features are aligned separately", "statement": "If the features fall into groups and features of different groups are uncorrelated in every domain, linear alignment (CORAL with any shrinkage, multi-domain Monge alignment) treats the groups separately: the adapted values of a group depend on the values of that group only. Without shrinkage CORAL gives a group the values it would get if CORAL were fitted on that group alone. When all features are uncorrelated, every feature is centred and multiplied by the ratio of its standard deviations.", "quantifier": "all data sets, all groupings of the features, all sizes of groups, all kinds of shrinkage, exact eigensolvers; the estimate of the source covariance positive definite", "why_tests_cant": "The statement ranges over all data sets with this correlation structure, and a wrong matrix product or a root of the wrong matrix mixes the groups only by small amounts on typical data.", "anchors": ["skada/_mapping.py:CORALAdapter", "skada/_mapping.py:MultiLinearMongeAlignmentAdapter"]}
{"id": "C245", "title": "adapting does not reverse the direction between two samples", "statement": "Optimal transport and linear alignment do not move two samples into opposite directions: the difference of two adapted samples makes an angle of at most 90 degrees with the difference of the samples. With a single feature the order of the samples is kept.", "quantifier": "all data sets and all pairs of samples; OT mapping with squared Euclidean costs and an exact plan, after fit_transform; multi-domain Monge alignment of any number of domains; CORAL without shrinkage", "why_tests_cant": "An inequality for every pair of samples of every data set; a test on some pairs says nothing about the others.", "anchors": ["skada/_mapping.py:OTMappingAdapter", "skada/_mapping.py:MultiLinearMongeAlignmentAdapter", "skada/_mapping.py:CORALAdapter"]}
{"id": "C246", "title": "gradual adaptation moves samples in equal steps and without meeting", "statement": "The data that gradual adaptation trains on move every sample from a source to a target on a straight line, by the same amount in each step. Two samples that start from different places do not meet before the last step: after t of n steps they are at least (1 - t/n) times as far apart as at the start.", "quantifier": "all data sets, numbers of steps, values of alpha and pairs of generated samples, with default or advanced plan sampling; for the distances, transport plans that are exact for the squared Euclidean cost", "why_tests_cant": "An inequality for every pair of samples, every step and every data set, resting on the optimality of the plan; tests compare a few accuracies.", "anchors": ["skada/_gradual_da.py:GradualEstimator.fit", "skada/_gradual_da.py:GradualEstimator.generate_data_at_step", "skada/_gradual_da.py:GradualEstimator._advanced_cut_off_gamma"]}
{"id": "C247", "title": "with one feature optimal transport matches quantiles", "statement": "On data with a single feature the OT mapping sends a source at some quantile of the sources to targets at the same quantile of the targets. With as many sources as targets and no value twice, the r-th smallest source is sent exactly to the r-th smallest target, and OT label propagation gives the r-th smallest target the label of the r-th smallest source.", "quantifier": "all data sets with one feature, all numbers of sources and targets and all labels, classes or numbers; OT mapping after fit_transform and OT label propagation, with squared Euclidean costs and an exact plan", "why_tests_cant": "It compares the ranks of every sample of every data set, also with different numbers of samples; tests check the result on a few samples.", "anchors": ["skada/_mapping.py:OTMappingAdapter", "skada/_mapping.py:BaseOTMappingAdapter.fit_transform", "skada/_ot.py:OTLabelPropAdapter.fit_transform"]}
