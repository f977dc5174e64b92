# Design

Formal model of scikit-adaptation/skada (pinned commit in /repo) in Coq 8.16.1, `rocq/theories`, logical root `Verif`.
This file is assembled by `tools/design.py` from `tools/design_head.md`, `tools/plan.json`, `tools/notes.json`, the theory files and the
output of `Print Assumptions`.

## Approach

Shallow, executable Gallina models, one definition per Python function, mirroring its branches in order;
each definition has a comment citing file and lines, and naming simplifications.

* Exceptions are values: `res A = Ok a | Err e`, `e` an enumerated Python exception class.
* Arrays are lists of rows (`list A`, row type abstract where the code does not inspect it); a boolean mask is
  `list bool`; an integer index array is `list nat` (negative indices modelled explicitly where they can arise).
* Domain labels are `Z`. int32 wrap-around is not modelled.
* Labels `y` are a rational number, `nan` or an infinity; sklearn's `type_of_target` is modelled for 1-D numeric arrays.
* Numerical code is over the standard library's reals `R`; matrices are lists of rows or functions of two indices. Floating-point rounding is not modelled, except in `FloatModel` and `FiniteModel` (C201 to C205), which use Flocq's binary64 rounding (no axioms beyond those below).
* External collaborators (base estimators, kernels, OT solvers, eigensolvers, RNG) are universally quantified function
  parameters, usually `Section` variables closed by `End`, with any contract an explicit hypothesis of the theorem.
  Random draws are arbitrary inputs; a permutation drawn is an arbitrary list with a `Permutation` hypothesis.
* In-place mutation, object identity (deepcopy, shared modules, default arguments) and files on disk are explicit state passing.

File roles: `Np.v`, `Labels.v`, `RVec.v` array library; `*Model.v` models; `*Spec.v` small specifications not using model helpers;
`*Proofs.v`, `*Facts.v` lemmas; `Thm*.v` the theorems with an `Example` beside each; `Assumptions.v` prints the axioms of every theorem.

## Properties that the code violates

Where the faithful model violates a property, the property text is kept as a user would want it; the theorem
is `..._refuted` with a concrete witness, plus the strongest positive statement that does hold.
MANIFEST status is then `partial` and the note says REFUTED. `_partial` marks a theorem that covers part of the statement; the
comment at the theorem and the note say what is missing.

## Trusted base

* Coq 8.16.1 kernel (`coqc`; the compiled files of this development were also checked with `coqchk -o -norec`, which trusts the installed libraries). No plugins, no `native_compute`, no disabled checks.
* Axioms: only those of the standard library, through `Reals` (and classical logic in a few proofs):
  `ClassicalDedekindReals.sig_forall_dec`, `ClassicalDedekindReals.sig_not_dec`,
  `FunctionalExtensionality.functional_extensionality_dep`, `Classical_Prop.classic`. The section "Assumptions per theorem"
  lists what `Print Assumptions` gives for each theorem.
* The correspondence model/Python, which is by reading: nothing in /repo was executed.
* Semantics of the libraries, as stated in the comments of the models:
  * numpy: indexing, boolean masks, `unique`, `concatenate`, broadcasting, `argsort`/`argmax` (first maximum), `repeat`, `random` draws.
  * scikit-learn: `clone`, `get_params`/`set_params`, metadata routing and request defaults (`__metadata_request__*`), `Bunch`,
    `type_of_target`, `check_array` on the shapes used, `KFold`, `StandardScaler`, `PCA`, `ledoit_wolf`, `KernelDensity`, base estimators.
  * scipy / numpy.linalg: `solve`, `eigh`, `svd`, `inv`, `sqrtm`, `cholesky`, `qr`, `multivariate_normal.pdf`, `optimize.minimize`, each an
    oracle with the contract written at the model (for example: orthonormal vectors, singular values independent of numbering).
  * POT (`ot`): `ot.emd`, `ot.emd2`, `ot.dist`, `ot.da.*Transport` as oracles; marginals of a plan as contract where needed.
  * torch: tensors as lists of real rows, `nn.Linear/Conv1d/Conv2d/MaxPool2d/Dropout/Softmax`, losses, forward hooks, `deepcopy` of modules,
    the gradient of `autograd` as the mathematical gradient, L-BFGS as an oracle.
  * skorch: `initialize`, cloning of nets, accepted parameter names, callbacks order, `train_step`/`infer` call order, default `train_split`, `get_split_datasets` passing on the fit parameters, `ValidSplit` and `predefined_split` signatures.
  * file system: a rename is atomic, a download writes in several steps that can be interrupted.

### Modelled parts of /repo/skada

| code | models |
|---|---|
| `utils.py` (splitting, merging, checking; optimisers; torch_minimize) | UtilsModel, Labels, FWModel, SubModel, DomArgModel |
| `_utils.py` | UtilsModel, SelectModel, Sel2Model, CovModel, FetchModel |
| `base.py` | SelectModel, Sel2Model, PipeModel, WrapModel, ChainModel (fitting a pipeline), PredictModel (predicting with one), NestModel (parameters by path) |
| `_pipeline.py` | PipeModel, FactModel |
| `transformers.py`, `model_selection.py`; every use of `random_state` | SplitModel, SeedModel |
| `_reweight.py` | ReweightModel, Rew2Model, TarsModel, CovModel, CtorModel, FactModel |
| `_mapping.py` | MapModel, MongeModel, CoralRegModel, MmdlsModel, CtorModel, FactModel |
| `_subspace.py` | MapModel, SubModel, RotModel, CtorModel, FactModel |
| `_ot.py` | OTModel, UnitModel, CtorModel, WrapModel |
| `_self_labeling.py`, `_gradual_da.py` | SelfModel, CtorModel, WrapModel |
| `metrics.py` | MetricsModel, DevModel, ScorerModel |
| attributes and histories of all shallow classes | HistModel |
| `datasets/_base.py` | DataModel, PackModel, FetchModel, Fetch2Model |
| `datasets/_samples_generator.py` | GenModel |
| `datasets/_office.py`, `_office_home.py`, `_amazon_review.py`, `_mnist_usps.py` | FetchModel, Fetch2Model |
| `deep/base.py` | DeepModel, NetModel, ViewModel, HoldModel |
| `deep/losses.py` | LossModel, AlignModel |
| `deep/_adversarial.py`, `deep/_divergence.py`, `deep/_class_confusion.py`, `deep/_optimal_transport.py`, `deep/_graph_alignment.py`, `deep/_baseline.py` | LossModel, NetModel, AlignModel, BuildModel |
| `deep/callbacks.py`, `deep/utils.py` | CallModel, CanModel, NetModel |
| arguments accepted and never read | ParamModel |
| `deep/modules.py` | NetModel, CallModel, AlignModel, ModuleModel |

### Not modelled

Floating-point rounding and non-finite intermediate values outside `FloatModel` and `FiniteModel`, integer overflow, memory caching (`joblib.Memory`), sparse matrices and DataFrames,
the contents of remote datasets and HTTP, the tests and examples, GPU and device placement, numerics of
optimisers and eigensolvers (oracles), `__repr__`s, logging and warnings except where they are the observable effect, sklearn
metadata-routing internals (its result is an input, or the request tables are modelled in Sel2Model).

## Properties

For each property: what is modelled and how it is proved, the models and the file with the theorems, the status and the theorems. The statements are in `properties.jsonl`.

* **C01** source_target_split is an order-preserving partition. Masks/boolean select on lists; spec by filter of an enumerated list. Induction on the label list.
  Models: UtilsModel; specification: Spec, UtilsSpec; theorems in ThmUtils.
  Status: proved. Arrays are lists of rows; the split equals the rows with label >= 0 / < 0, for every interleaving. A length mismatch is an IndexError (the consistency check in the code is ineffective).
  Theorems: `C01_split_exact`, `C01_split_partition`, `C01_split_aligned`, `C01_split_errors`.
* **C02** split then merge is the identity. Compose split and merge models; induction over the interleaving.
  Models: UtilsModel; specification: Spec, UtilsSpec; theorems in ThmUtils.
  Status: proved. Round trip on arrays with dtype and trailing shape, all layouts including one-sided ones.
  Theorems: `C02_split_merge_roundtrip`.
* **C03** merge puts each given row at its domain position and rejects miscounts. Merge model incl. dtype casts and error branches; spec by counting positions. Expect refutation of 'values unchanged' for mixed dtypes.
  Models: UtilsModel; specification: Spec, UtilsSpec; theorems in ThmUtils.
  Status: partial. REFUTED for mixed dtypes: with an integer source and a float target array the target values are truncated. Placement, counts and all rejections are proved; values are unchanged when the source array is float or both contain integers.
  Theorems: `C03_merge_places_rows_partial`, `C03_merge_values_unchanged_partial`, `C03_merge_values_unchanged_refuted`, `C03_merge_miscount_rejected`, `C03_merge_bad_call_rejected`.
* **C04** merge fills a missing side with the mask label. Merge model on label arrays with `_find_y_type`; case split.
  Models: UtilsModel; specification: Spec, UtilsSpec; theorems in ThmCol, ThmUtils.
  Status: proved. 1-D labels, either side missing.
  Theorems: `C04_column_masked`, `C04_columns_refused`, `C04_missing_target_masked`, `C04_missing_source_masked`.
* **C05** check_X_domain accepts exactly the inputs its flags describe. Full check_X_domain model; iff with a declarative spec. Expect refutation for multi-target.
  Models: UtilsModel; specification: Spec, UtilsSpec; theorems in ThmUtils.
  Status: partial. REFUTED for allow_multi_target: the code tests the number of sources, so several targets are accepted and several sources rejected; also check_X_y_domain accepts sample_domain of the wrong length. The exact acceptance condition is proved, and it is the documented one when allow_multi_target=True.
  Theorems: `C05_check_X_domain_accepts_partial`, `C05_check_X_domain_only_ValueError`, `C05_check_X_domain_documented_partial`, `C05_allow_multi_target_refuted`, `C05_check_X_y_domain_accepts_partial`, `C05_check_X_y_domain_length_refuted`.
* **C06** domain labels inferred from masked y. check_X_y_domain/_check_y_masking model over numeric/NaN/inf labels.
  Models: UtilsModel; specification: Spec, UtilsSpec; theorems in ThmUtils.
  Status: proved. All label vectors; discrete and continuous.
  Theorems: `C06_auto_domain_discrete`, `C06_auto_domain_continuous`, `C06_auto_domain_rejects`, `C06_defaults_without_labels`.
* **C07** per-domain extraction partitions the samples. Sorted-unique + flatnonzero model; Permutation statement.
  Models: UtilsModel; specification: Spec, UtilsSpec; theorems in ThmUtils.
  Status: proved. All label vectors.
  Theorems: `C07_domains_indices_exact`, `C07_positions_increasing_and_exact`, `C07_split_source_target`, `C07_per_domain_split_exact`.
* **C08** frank_wolfe always returns a feasible point. frank_wolfe over R with arbitrary oracle; invariant by induction on iterations.
  Models: FWModel; specification: FWSpec; theorems in ThmFW.
  Status: proved. Real arithmetic. For max_iter = 0 the (infeasible) starting point is returned: C08_zero_iterations_infeasible.
  Theorems: `C08_frank_wolfe_feasible`, `C08_frank_wolfe_returns`, `C08_zero_iterations_infeasible`.
* **C09** frank_wolfe steps toward a true linear minimiser. Inequality over R for arbitrary feasible competitor.
  Models: FWModel; specification: FWSpec; theorems in ThmFW.
  Status: proved. Stated for every iteration of every run (trace of iterates), real arithmetic.
  Theorems: `C09_linear_minimiser`.
* **C10** qp_solve(frank-wolfe) respects the documented constraints. Branch model of qp_solve front end + frank_wolfe feasibility. Expect refutation for bounds.
  Models: FWModel; specification: FWSpec; theorems in ThmFW.
  Status: partial. REFUTED in three ways: lb/ub are ignored; A x <= b is ignored when Aeq is given too; a negative lower bound gives negative x. Proved for one equality row, one inequality row and two opposite rows with non-negative bounds; for nearly opposite rows up to the allclose tolerance; rejections proved.
  Theorems: `C10_equality`, `C10_two_sided`, `C10_one_sided`, `C10_nearly_opposite`, `C10_rejects`, `C10_bounds_ignored_refuted`, `C10_both_constraints_refuted`, `C10_negative_lower_bound_refuted`.
* **C11** removing masked samples keeps rows aligned. remove_masked model with parameter dictionary; spec by kept positions.
  Models: SelectModel, UtilsModel; specification: SelectSpec, Spec, UtilsSpec; theorems in ThmSelect.
  Status: proved. Stated on the fit call of the Shared selector; discrete and continuous labels, arbitrary parameter dictionaries. A per-sample parameter passed as a Python list raises TypeError (proved). Infinite labels are dropped only when a NaN is present as well (otherwise label-kind detection rejects the vector).
  Theorems: `C11_fit_drops_masked_discrete`, `C11_fit_drops_masked_continuous`, `C11_fit_keeps_all_otherwise`, `C11_python_list_rejected`.
* **C12** per-domain outputs land on the rows they were computed from. Scatter model with zeros-initialised output; pointwise spec.
  Models: SelectModel, UtilsModel; specification: SelectSpec, Spec, UtilsSpec; theorems in ThmSelect.
  Status: partial. REFUTED for outputs of different dtypes: the merged array takes the dtype of the first output, later values are cast. Placement is proved for every partition into integer or boolean indices, for arrays and for (X, y, params) containers.
  Theorems: `C12_outputs_land_on_their_rows`, `C12_uncovered_rows_zero`, `C12_container_outputs_land`, `C12_mixed_dtype_refuted`.
* **C13** target labels do not influence what a masked estimator is fitted on. Shared._fit model returning the exact call arguments; two-run theorem.
  Models: SelectModel, UtilsModel; specification: SelectSpec, Spec, UtilsSpec; theorems in ThmSelect.
  Status: proved. Two-run theorem for Shared and PerDomain, any wrapped estimator, any container. The premise that both label vectors have the same kind is shown to be needed.
  Theorems: `C13_shared_no_target_label_leak`, `C13_per_domain_no_target_label_leak`, `C13_masked_call`, `C13_label_kind_premise_needed`.
* **C14** fitting does not modify the caller's labels. State-passing model of in-place masking. Expect refutation.
  Models: SelectModel, UtilsModel; specification: SelectSpec, Spec, UtilsSpec; theorems in ThmSelect.
  Status: partial. REFUTED: masking writes -1/NaN into the caller's array. Exact content after fit proved; unchanged when masking is off, no sample_domain is given, or no target sample is present.
  Theorems: `C14_fit_overwrites_caller_labels_refuted`, `C14_caller_labels_after_fit_partial`, `C14_caller_labels_unchanged_partial`.
* **C15** PerDomain routes every sample to its own domain's estimator. PerDomain fit/route model with abstract estimator (Section variables).
  Models: SelectModel, UtilsModel; specification: SelectSpec, Spec, UtilsSpec; theorems in ThmSelect.
  Status: proved. Fit calls, routing at prediction time and rejection of unseen labels, for every layout.
  Theorems: `C15_per_domain_fit_calls`, `C15_per_domain_routes_rows`, `C15_unseen_label_rejected`.
* **C16** PerDomain can be fitted with masked target labels. Same model, masked predictor path. Expect refutation.
  Models: DeepModel, MetricsModel, SelectModel, UtilsModel; specification: DeepSpec, MetricsSpec, SelectSpec, Spec, UtilsSpec; theorems in ThmHolds, ThmSelect.
  Status: partial. REFUTED on every input with a target sample: rows are removed before the full sample_domain is used to index them, so fit raises IndexError. Proved: estimators that receive sample_domain, and transformers, are fitted once per domain with the labels of target domains masked.
  Theorems: `C16_domain_aware_estimators`, `C16_per_domain_masked_fit_always_fails_refuted`.
* **C17** SelectSource / SelectTarget fit on exactly their side. _BaseSelectDomain model.
  Models: SelectModel, UtilsModel; specification: SelectSpec, Spec, UtilsSpec; theorems in ThmSelect.
  Status: proved. Both selectors, transformers and plain estimators, arbitrary parameter dictionaries.
  Theorems: `C17_select_side_rows`, `C17_select_side_plain`, `C17_select_target_refuses_masking`.
* **C18** SelectSourceTarget keeps two estimators apart. SelectSourceTarget model.
  Models: ChainModel, DataModel, GenModel, PipeModel, SelectModel, UtilsModel; specification: GenSpec, SelectSpec, Spec, UtilsSpec; theorems in ThmSelect, ThmTight5.
  Status: proved. Fit and prediction; plain estimators with discrete labels in C18_fit_each_side_plain.
  Theorems: `C18_fit_each_side`, `C18_fit_each_side_plain`, `C18_fit_needs_both_sides`, `C18_predict_each_side`, `C18_in_pipeline`.
* **C19** metadata produced by a step overrides the caller's. Container merge model, fold over arbitrary step lists.
  Models: SelectModel, UtilsModel; specification: SelectSpec, Spec, UtilsSpec; theorems in ThmSelect.
  Status: proved. Any sequence of step outputs.
  Theorems: `C19_metadata_override`.
* **C20** auto-generated step names are unique. Name counter model over strings; NoDup proof.
  Models: PipeModel, SelectModel; specification: PipeSpec, SelectSpec, Spec; theorems in ThmPipe.
  Status: partial. REFUTED for mixed names: a user-given name may equal a generated one. Every unnamed step's name is characterised exactly, for every default_selector; unnamed steps get pairwise distinct names whenever no base name contains a dash (class names never do).
  Theorems: `C20_step_names`, `C20_unnamed_steps_distinct`, `C20_user_name_collision_refuted`.
* **C21** only the last step of a DA pipeline is final. make_da_pipeline model (recursive flattening over step trees).
  Models: PipeModel, SelectModel; specification: PipeSpec, SelectSpec, Spec; theorems in ThmPipe.
  Status: partial. REFUTED when a selector that is already final is passed directly as a step (two final steps). Proved for estimators, non-final selectors and nested pipelines in any order and number.
  Theorems: `C21_empty_call`, `C21_flat_and_only_last_final`, `C21_stale_final_flag_refuted`, `C21_bad_selector_rejected`.
* **C22** label masking is disabled from the first label-predicting step on. Fold model of _wrap_with_selectors; prefix/suffix spec.
  Models: PipeModel, SelectModel; specification: PipeSpec, SelectSpec, Spec; theorems in ThmPipe.
  Status: partial. REFUTED when the label-predicting step is already wrapped in a selector. Proved for every list of steps with respect to the plain estimators in it; selectors keep their own setting.
  Theorems: `C22_masking_stops_at_label_predictor_partial`, `C22_prewrapped_predictor_refuted`.
* **C23** pack encodes the role and identity of every domain in the label sign. pack model; list-concatenation spec with signed ids.
  Models: DataModel, PipeModel, UtilsModel; specification: DataSpec, Spec, UtilsSpec; theorems in ThmData.
  Status: proved. numpy data with 1-D labels; torch tensors not modelled. Domains registered with different numbers of rows and labels are not rejected (example).
  Theorems: `C23_pack_layout`, `C23_pack_unknown_name`, `C23_pack_nothing`.
* **C24** pack with mask_target_labels hides every target label. pack label part with mask threading.
  Models: DataModel, PipeModel, UtilsModel; specification: DataSpec, Spec, UtilsSpec; theorems in ThmData, ThmPackOld.
  Status: partial. REFUTED for target labels whose dtype is neither int32/int64 nor float32/float64 (e.g. int8, bool): they are packed unmasked. Proved whenever a user mask is given or the first target domain has one of the four dtypes or no labels.
  Theorems: `C24_target_labels_masked_partial`, `C24_unmasked_labels_unchanged`, `C24_other_dtypes_unmasked_refuted`, `C24_pack_train`, `C24_pack_test`.
* **C25** domain names stay distinct and retrievable. State machine of add_domain; history induction. Expect refutation on collisions + positive theorem without collisions.
  Models: DataModel, PipeModel, UtilsModel; specification: DataSpec, Spec, UtilsSpec; theorems in ThmData.
  Status: partial. REFUTED: a generated name can overwrite a user-chosen one ('_2'), losing a domain silently; merge raises on X-only domains; a tuple of wrong length in the constructor repeats the previous domain. Proved for all call sequences in which no explicit name looks generated, and whenever the registered names are distinct.
  Theorems: `C25_domains_retrievable_partial`, `C25_distinct_history`, `C25_duplicate_name_refused`, `C25_generated_name_overwrites_refuted`, `C25_merge_unlabelled_refuted`, `C25_constructor`, `C25_constructor_bad_tuple_refuted`.
* **C26** packing and splitting round-trip. Composition pack + per_domain_split.
  Models: DataModel, PipeModel, UtilsModel; specification: DataSpec, Spec, UtilsSpec; theorems in ThmData.
  Status: proved. Also through per_domain_split.
  Theorems: `C26_pack_then_select`, `C26_pack_then_per_domain_split`.
* **C27** select_domain marks exactly the named domains. select_domain model.
  Models: DataModel, PipeModel, UtilsModel; specification: DataSpec, Spec, UtilsSpec; theorems in ThmData.
  Status: proved. 
  Theorems: `C27_select_domain_exact`, `C27_select_domain_known`, `C27_unknown_name`.
* **C28** SourceTargetShuffleSplit splits are disjoint and per-side exact. Permutation-based split model.
  Models: SelectModel, SplitModel, UtilsModel; specification: Spec, SplitSpec, UtilsSpec; theorems in ThmSplit.
  Status: proved. Permutations drawn by the RNG are arbitrary permutations (inputs). sklearn's size validation is modelled; fractions are exact rationals instead of floats. C28_shuffle_split_succeeds gives the converse (valid sizes on both sides never raise).
  Theorems: `C28_shuffle_split_exact`, `C28_shuffle_split_succeeds`.
* **C29** train/test sizes are valid. Rational-arithmetic model of _validate_shuffle_split.
  Models: SelectModel, SplitModel, UtilsModel; specification: Spec, SplitSpec, UtilsSpec; theorems in ThmSplit.
  Status: proved. Exact rationals instead of floats; None, int and fraction sizes in every combination.
  Theorems: `C29_sizes_exact`, `C29_test_part_nonempty`, `C29_impossible_rejected`.
* **C30** LeaveOneDomainOut never trains on the held-out domain as a source. LODO model with permutation oracles. Expect refutation for label 0.
  Models: SelectModel, SplitModel, UtilsModel; specification: Spec, SplitSpec, UtilsSpec; theorems in ThmSplit.
  Status: proved. Number of splits, held-out domain and disjointness for every RNG outcome. A domain labelled 0 cannot be held out: the split raises ValueError (C30_zero_domain_raises).
  Theorems: `C30_leave_one_domain_out`, `C30_number_of_splits`, `C30_zero_domain_raises`.
* **C31** StratifiedDomainShuffleSplit preserves group counts. Group-wise model with allocation oracle (contract stated).
  Models: SelectModel, SplitModel, UtilsModel; specification: Spec, SplitSpec, UtilsSpec; theorems in ThmSplit.
  Status: proved. sklearn's _approximate_mode is an oracle constrained only by its contract (allocation bounded by group size, summing to the requested size).
  Theorems: `C31_stratified_groups_exact`, `C31_stratified_succeeds`, `C31_stratified_rejects`.
* **C32** DomainShuffleSplit under-samples every domain by the same fraction. DomainShuffleSplit model.
  Models: SelectModel, SplitModel, UtilsModel; specification: Spec, SplitSpec, UtilsSpec; theorems in ThmSplit.
  Status: proved. RNG choices are arbitrary permutations; floor of exact rationals.
  Theorems: `C32_domain_shuffle_split`, `C32_fraction_range`.
* **C33** subsamplers keep features, labels and parameters aligned. Subsampler models with splitter index oracle.
  Models: SeedModel, SelectModel, SplitModel, UtilsModel; specification: SeedSpec, Spec, SplitSpec, UtilsSpec; theorems in ThmSeedRows, ThmSplit.
  Status: proved. All three subsamplers; the splitter is an arbitrary function in the alignment theorem, and the real one in the distinctness theorems. train_size >= n returns the data unchanged (StratifiedDomainSubsampler fills in missing sample_domain).
  Theorems: `C33_seeded_rows`, `C33_subsample_aligned`, `C33_keep_all_unchanged`, `C33_plain_indices_distinct`, `C33_stratified_indices_distinct`.
* **C34** reweighting gives weight only to source samples. compute_weights models with oracle values; scatter spec.
  Models: FWModel, ReweightModel, SelectModel, UtilsModel; specification: FWSpec, ReweightSpec, Spec, UtilsSpec; theorems in ThmReweight.
  Status: proved. Proved for the five adapters with the exact weight of every source row (density, Gaussian, discriminator, KLIEP, KMM), target weights zero; estimators, kernels, pdfs and exp are universally quantified.
  Theorems: `C34_gaussian`, `C34_density`, `C34_discriminator_labels`, `C34_discriminator`, `C34_kliep`, `C34_kmm`, `C34_fit_transform`.
* **C35** density weights are non-negative with mean one on the sources. Real-number normalisation.
  Models: FWModel, ReweightModel, SelectModel, UtilsModel; specification: FWSpec, ReweightSpec, Spec, UtilsSpec; theorems in ThmReweight.
  Status: partial. REFUTED in floating point: the code's fallback for an all-zero mean gives 1/n (mean 1/n). With the real exponential (no underflow) the weights are non-negative with mean one.
  Theorems: `C35_density_mean_one`, `C35_underflow_refuted`.
* **C36** discriminator weights grow with target-likeness. Real-number monotonicity. Expect refutation.
  Models: FWModel, ReweightModel, SelectModel, UtilsModel; specification: FWSpec, ReweightSpec, Spec, UtilsSpec; theorems in ThmReweight.
  Status: partial. REFUTED: the weight is (1-p)/p with p the estimated probability of being a target, so it decreases with target-likeness. Proved: the order is exactly reversed, weights non-negative with mean one.
  Theorems: `C36_reversed_order`, `C36_grows_with_target_likeness_refuted`.
* **C37** KLIEP weights are non-negative and average to one on the sources. KLIEP loop over R; invariant.
  Models: FWModel, ReweightModel, SelectModel, UtilsModel; specification: FWSpec, ReweightSpec, Spec, UtilsSpec; theorems in ThmReweight.
  Status: proved. Proved for every kernel, RNG draw, tolerance and max_iter >= 1.
  Theorems: `C37_kliep_mean_one`.
* **C38** nearest-neighbour weights count target samples. Index model of the complement indexing. Expect refutation.
  Models: FWModel, ReweightModel, SelectModel, UtilsModel; specification: FWSpec, ReweightSpec, Spec, UtilsSpec; theorems in ThmReweight.
  Status: partial. REFUTED: X[~source_idx] on integer positions selects the mirrored rows, not the targets. Proved: the exact counts computed, and the documented counts for layouts in which sources and targets mirror each other.
  Theorems: `C38_exact_counts`, `C38_mirrored_partial`, `C38_counts_targets_refuted`.
* **C39** KMM weights respect the kernel-mean-matching constraints. KMM constraints via frank_wolfe. Expect refutation of bound B.
  Models: FWModel, ReweightModel, SelectModel, UtilsModel; specification: FWSpec, ReweightSpec, Spec, UtilsSpec; theorems in ThmReweight.
  Status: partial. REFUTED for the bound B (never passed to the frank-wolfe solver). Proved: non-negativity and the two-sided bound on the mean for every eps <= 1 and the default eps; negative eps rejected.
  Theorems: `C39_kmm_mean_bounds`, `C39_negative_eps`, `C39_upper_bound_refuted`.
* **C40** mapping adapters leave target samples in place and unmodified. BaseOTMapping.transform model with oracle map.
  Models: MapModel, SelectModel, UtilsModel; specification: MapSpec, Spec, UtilsSpec; theorems in ThmMap.
  Status: proved. Proved for every transport that returns one float row per source row; fit is proved to give it exactly the source and target samples and labels. POT itself is an oracle.
  Theorems: `C40_ot_transform`, `C40_ot_fit_transform`, `C40_sources_rejected`.
* **C41** subspace adapters return rows in input order. TCA/TJM/SA transform models with row-wise oracle maps. Expect refutation.
  Models: MapModel, SelectModel, UtilsModel; specification: MapSpec, Spec, UtilsSpec; theorems in ThmMap.
  Status: partial. REFUTED for TCA and TJM on interleaved training data: fit_transform returns the images of the sources, then those of the targets. Proved: SubspaceAlignment and TransferSubspaceLearning for every layout, TCA/TJM on any data other than the training data, on sources-first training data, and the exact order otherwise.
  Theorems: `C41_subspace_alignment`, `C41_transfer_subspace`, `C41_kernel_new_data`, `C41_kernel_block_order_partial`, `C41_interleaved_refuted`.
* **C42** TransferJointMatching iterates until convergence. TJM loop model over R. Expect refutation.
  Models: MapModel, SelectModel, UtilsModel; specification: MapSpec, Spec, UtilsSpec; theorems in ThmMap.
  Status: partial. REFUTED: the first test divides by the negative initial value -2*tol, so for every tol > 0 exactly one iteration is run. Proved: stops after the first iteration are on a small relative change; tol < 0 uses the whole budget; max_iter = 0 raises UnboundLocalError.
  Theorems: `C42_one_iteration`, `C42_stops_early_refuted`, `C42_later_stops_partial`, `C42_negative_tolerance`, `C42_no_iteration`.
* **C43** MultiLinearMonge applies each domain's own affine map. Per-domain affine map model.
  Models: MapModel, SelectModel, UtilsModel; specification: MapSpec, Spec, UtilsSpec; theorems in ThmMap.
  Status: partial. REFUTED for integer X (mapped values are truncated when assigned into a copy of X). Proved for float X, with the KeyError, and what fit stores for each domain.
  Theorems: `C43_transform`, `C43_unseen_domain`, `C43_fit`, `C43_integer_input_refuted`.
* **C44** SupervisedScorer looks at target samples only. Scorer model, two-run theorem.
  Models: MetricsModel, ReweightModel, SelectModel, UtilsModel; specification: FWSpec, MetricsSpec, ReweightSpec, Spec, UtilsSpec; theorems in ThmMetrics.
  Status: proved. Proved for every scoring function; the estimator behind it is universally quantified.
  Theorems: `C44_target_rows`, `C44_source_independent`.
* **C45** importance weights form a distribution over the sources. Real normalisation.
  Models: MetricsModel, ReweightModel, SelectModel, UtilsModel; specification: FWSpec, MetricsSpec, ReweightSpec, Spec, UtilsSpec; theorems in ThmMetrics.
  Status: proved. Proved for every weight estimator and every non-negative exp (so also when it underflows to zero everywhere); the weights are the normalised ratios.
  Theorems: `C45_weights`.
* **C46** prediction entropy is an entropy. Real entropy bounds (ln inequality). Expect refutation for reductions.
  Models: MetricsModel, ReweightModel, SelectModel, UtilsModel; specification: FWSpec, MetricsSpec, ReweightSpec, Spec, UtilsSpec; theorems in ThmMetrics.
  Status: partial. REFUTED for 'mean' (divided by the number of classes as well) and 'none' (a matrix, not one value per sample). Proved: bounds for 'sum', and the exact value of the two other reductions.
  Theorems: `C46_sum`, `C46_mean_value`, `C46_none_value`, `C46_mean_none_refuted`.
* **C47** soft neighbourhood density is a mean of per-sample entropies. Softmax over whole matrix. Expect refutation.
  Models: MetricsModel, ReweightModel, SelectModel, UtilsModel; specification: FWSpec, MetricsSpec, ReweightSpec, Spec, UtilsSpec; theorems in ThmMetrics.
  Status: proved. Proved for every probability estimator and temperature: entries of the similarity distribution, row sums, and the entropy bounds. Floating-point log(0) after underflow is not modelled.
  Theorems: `C47_mean_of_entropies`.
* **C48** DEV computes the control-variate estimate. Broadcast model of (n,1)*(n,). Expect refutation.
  Models: MetricsModel, ReweightModel, SeedModel, SelectModel, SplitModel, UtilsModel; specification: FWSpec, MetricsSpec, ReweightSpec, SeedSpec, Spec, SplitSpec, UtilsSpec; theorems in ThmMetrics, ThmSeedRows.
  Status: partial. REFUTED for one-dimensional losses such as the default: weights of shape (n,1) broadcast to an (n,n) product. Proved: the exact value returned, how weights are formed, and that (n,1)-shaped losses give the stated estimate.
  Theorems: `C48_column_loss_partial`, `C48_default_loss_value`, `C48_weights`, `C48_default_loss_refuted`, `C48_parts`.
* **C49** CircularValidation swaps the roles of all domains. CircularValidation data-flow model. Expect refutation for label 0.
  Models: MetricsModel, ReweightModel, SelectModel, UtilsModel; specification: FWSpec, MetricsSpec, ReweightSpec, Spec, UtilsSpec; theorems in ThmMetrics.
  Status: partial. REFUTED when a source domain is labelled 0 (its negation is still a source). Proved: everything the backward estimator is given, the role swap when no label is 0, and independence of the source labels.
  Theorems: `C49_roles_swapped`, `C49_score`, `C49_source_labels_unused`, `C49_source_zero_refuted`.
* **C50** MixVal mixes and partitions consistently. MixVal index model.
  Models: MetricsModel, ReweightModel, SelectModel, UtilsModel; specification: FWSpec, MetricsSpec, ReweightSpec, Spec, UtilsSpec; theorems in ThmMetrics.
  Status: proved. Proved for every predictor, scorer, permutation argument and alpha.
  Theorems: `C50_mixval`.
* **C51** MaNo score lies in [0,1]. Real bounds on p-norm/softmax/taylor.
  Models: LossModel, MapModel, MetricsModel, OTModel, ReweightModel, SelectModel, UtilsModel; specification: FWSpec, LossSpec, MetricsSpec, OTSpec, ReweightSpec, Spec, UtilsSpec; theorems in ThmLabelLoss, ThmMetrics.
  Status: proved. Proved for p > 0 (other p raise); the Taylor normalisation under the condition that its row values are not all equal, the softmax always.
  Theorems: `C51_power_mean`, `C51_probabilities`, `C51_softmax`, `C51_taylor`, `C51_deep`.
* **C52** OTLabelProp masks sources and labels targets with source classes. Label propagation by argmax over oracle plan.
  Models: FetchModel, FiniteModel, FloatModel, OTModel, SelectModel, UnitModel, UtilsModel; specification: FetchSpec, OTSpec, Spec, UtilsSpec; theorems in ThmOT, ThmTight2.
  Status: proved. Proved for classification (ties go to the smallest class) and regression (masked rows are NaN, targets get the barycentre); the plan is an oracle. Labels are integers, resp. reals; check_X_y_domain and the choice of the branch (C06) are modelled elsewhere.
  Theorems: `C52_discrete_labels`, `C52_regression_labels`, `C52_ignores_target_labels`, `C52_by_values`.
* **C53** JCPOT assigns each target sample its own label. JCPOT index model. Expect refutation.
  Models: OTModel, UtilsModel; specification: OTSpec, Spec, UtilsSpec; theorems in ThmOT.
  Status: partial. REFUTED twice: scores are computed domain by domain in increasing label order but written in sample order (target domains -1, -2 in this order exchange labels), and column numbers are returned instead of class labels. Proved when targets are sorted by domain label and classes are 0..K-1, and what is computed in general. JCPOT's plan is an oracle giving one score row per target sample.
  Theorems: `C53_jcpot_labels_partial`, `C53_jcpot_columns`, `C53_target_order_refuted`, `C53_label_values_refuted`.
* **C54** JDOT stops correctly and reports all losses. Loop model with loss oracle.
  Models: LossModel, MapModel, MetricsModel, OTModel, SelectModel, UtilsModel; specification: LossSpec, MetricsSpec, OTSpec, Spec, UtilsSpec; theorems in ThmLabelLoss, ThmOT.
  Status: proved. Proved for both solvers with every OT solver, estimator and metric, including the exact costs, fitting labels and losses of each iteration; n_iter_max = 0 raises UnboundLocalError.
  Theorems: `C54_label_loss`, `C54_regression_run`, `C54_regression_succeeds`, `C54_no_iteration`, `C54_classification_run`.
* **C55** JDOT training data is the thresholded label plan. repeat/flatten model; flat_map spec.
  Models: OTModel, UtilsModel; specification: OTSpec, Spec, UtilsSpec; theorems in ThmOT.
  Status: proved. Proved for every rectangular label plan; an empty one raises ValueError.
  Theorems: `C55_fitting_data`, `C55_triples`, `C55_empty_raises`.
* **C56** DASVM candidate selection is sound. Selection step model with masks. Expect partial refutation (k points per class).
  Models: SelectModel, SelfModel, UtilsModel; specification: OTSpec, SelfSpec, Spec, UtilsSpec; theorems in ThmSelf.
  Status: partial. REFUTED for k > 1 points per class: the mask of candidates is not updated between the k repetitions, so every repetition selects the same points and at most one point per class is added. The rest is proved for every mask, score matrix and condition. Decision values and base estimator are oracles; two classes, as in the code.
  Theorems: `C56_selection_step`, `C56_progress`, `C56_at_most_one_per_class`, `C56_k_per_class_refuted`, `C56_first_selection`, `C56_iteration`.
* **C57** DASVM probabilities come from the adapted model. Attribute-level model. Expect refutation.
  Models: SelectModel, SelfModel, UtilsModel; specification: OTSpec, SelfSpec, Spec, UtilsSpec; theorems in ThmSelf.
  Status: partial. REFUTED: predict_proba uses base_estimator, which fit trained on the source samples only, while predict and decision_function use the final model base_estimator_ (witness with different probabilities; proved in general).
  Theorems: `C57_predict_and_decision`, `C57_proba_is_source_model`, `C57_proba_refuted`.
* **C58** gradual adaptation interpolates from source to target. Real convex combinations.
  Models: SelectModel, SelfModel, UtilsModel; specification: OTSpec, SelfSpec, Spec, UtilsSpec; theorems in ThmGrad.
  Status: proved. Proved for every plan, number of steps and mode; the plan and the base estimator are oracles, reals instead of floats.
  Theorems: `C58_interpolated`.
* **C59** gradual cut-off keeps the requested number of pairs. Sorting/threshold model. Expect refutation on ties.
  Models: SelectModel, SelfModel, UtilsModel; specification: OTSpec, SelfSpec, Spec, UtilsSpec; theorems in ThmGrad.
  Status: partial. REFUTED for ties: every pair at the threshold is kept, so a constant plan between ns and nt samples with ns + nt + 1 < ns nt makes fit raise IndexError with the default alpha. Proved: the number and choice of the pairs whenever fit succeeds, success for plans with pairwise different coefficients (alpha >= 0), and advanced mode without restriction.
  Theorems: `C59_number_of_samples`, `C59_advanced`, `C59_completes_partial`, `C59_ties_refuted`.
* **C60** domain-balanced batches are balanced. Sampler model with arbitrary permutations per restart.
  Models: BuildModel, CallModel, CtorModel, DeepModel, FactModel, LossModel, MapModel, MmdlsModel, ViewModel; specification: CtorSpec, DeepSpec, Spec, ViewSpec; theorems in ThmDeep, ThmTight.
  Status: proved. Proved for every dataset, batch size, mode and every sequence of permutations drawn by the generator. When both sides are smaller than the batch size the loader yields no batch at all. Sampler plus the batching of the torch DataLoader with drop_last irrelevant (lengths are multiples); multiprocessing is not modelled.
  Theorems: `C60_epoch`, `C60_batches`, `C60_small_sides_give_no_batch`, `C60_one_side`.
* **C61** domain-only batches contain one side without repetition. Sampler model.
  Models: DeepModel; specification: DeepSpec, Spec; theorems in ThmDeep.
  Status: proved. Proved for every dataset, batch size and permutation.
  Theorems: `C61_batches`, `C61_unknown_side`.
* **C62** DeepDADataset selections and merges keep tensors aligned. Record-of-lists model.
  Models: DeepModel; specification: DeepSpec, Spec; theorems in ThmDeep.
  Status: proved. Proved. Also proved: merging with keep_weights when only one side has weights is an assertion error. Tensors are lists of rows, dict inputs are modelled for the constructor only.
  Theorems: `C62_constructor`, `C62_constructor_accepts`, `C62_select_source`, `C62_select_target`, `C62_select_domain`, `C62_select_with_labels`, `C62_select_condition`, `C62_numbers_kept`, `C62_partition`, `C62_per_domain_split`, `C62_merge`, `C62_merge_mixed_weights`, `C62_items`, `C62_weights`, `C62_copy`, `C62_dict`.
* **C63** the training loss never uses target labels. Criterion forward data-flow model.
  Models: DeepModel; specification: DeepSpec, Spec; theorems in ThmDeep.
  Status: proved. Proved for every base and adaptation criterion (oracles), with the exact value of the loss.
  Theorems: `C63_source_labels_only`, `C63_target_labels_unused`.
* **C64** sample weights multiply the losses of the samples they belong to. Mask mismatch model. Expect refutation.
  Models: CtorModel, DeepModel, DomArgModel, FWModel, FactModel, LossModel, ModuleModel, UtilsModel; specification: DeepSpec, FactSpec, Spec; theorems in ThmDeep, ThmLayers, ThmTight8.
  Status: partial. REFUTED: weights are restricted to sample_domain > 0 while losses are restricted to sample_domain >= 0. With source domain 0 (the default) and at least two source samples training raises; with domains 0 and 1 a wrong weight is used silently (witness). Proved: aligned when no domain is labelled 0; a reduced base loss is refused.
  Theorems: `C64_aligned`, `C64_zero_labels_raise_refuted`, `C64_reduced_loss_raises`, `C64_wrong_weights_refuted`, `C64_no_weights`, `C64_single_source`.
* **C65** the memory bank is a moving average. Memory bank update. Expect refutation.
  Models: CallModel, LossModel, ModuleModel, NetModel; specification: CallSpec, LossSpec, NetSpec; theorems in ThmCall, ThmDrop.
  Status: partial. REFUTED: the update multiplies the stored rows by 1 - momentum and never adds the new features; proved for every history: entry i is its initial random value times (1-momentum)^(number of batches with i), and the content does not depend on any feature.
  Theorems: `C65_moving_average_refuted`, `C65_decay`, `C65_runs`, `C65_ignores_features`, `C65_start`.
* **C66** the default domain classifier can tell domains apart. Softmax over one class. Expect refutation.
  Models: CallModel, LossModel; specification: CallSpec, LossSpec; theorems in ThmCall.
  Status: partial. REFUTED: a softmax over the single default output is 1 for all parameters and inputs; the default adversarial loss is therefore the constant 100 (BCE clamps its logarithm at -100). With two outputs the classifier does separate.
  Theorems: `C66_constant_refuted`, `C66_dann_constant`, `C66_two_outputs`.
* **C67** minimum class confusion loss is bounded. Real bounds.
  Models: LossModel; specification: LossSpec; theorems in ThmLoss.
  Status: proved. Proved over the reals (in floating point a class whose probabilities all underflow to 0 gives nan). The value of the loss (weighted confusion) is proved too, for two or more classes.
  Theorems: `C67_mcc_bounded`, `C67_mcc_value`.
* **C68** spherical k-means keeps the best run. Fold with argmin.
  Models: CallModel, LossModel; specification: CallSpec, LossSpec; theorems in ThmCall, ThmKmeans.
  Status: proved. Proved for any list of initial centroids (the random choices are inputs), together with what one run does and when it fails (max_iter = 0, no run).
  Theorems: `C68_best_run`, `C68_run`, `C68_tolerance`, `C68_iterations`, `C68_degenerate`, `C68_best_initialisation`.
* **C69** the SPA schedules stay in range. Schedules over R, epoch counter state machine. Expect refutation of restart.
  Models: CallModel, LossModel; specification: CallSpec, LossSpec; theorems in ThmCall.
  Status: partial. REFUTED for the re-fit: CountEpochs resets its own counter, not the counter of the criterion which it increments, so a second fit continues the schedule and the pseudo-label weight reaches 2. The first fit is proved.
  Theorems: `C69_first_fit`, `C69_ranges`, `C69_restart_refuted`.
* **C70** DeepJDOT label cost pairs each source with each target. Index bookkeeping of repeat/permute/reshape.
  Models: LossModel, MapModel, MetricsModel, OTModel, SelectModel, UtilsModel; specification: LossSpec, MetricsSpec, OTSpec, Spec; theorems in ThmLabelLoss, ThmLoss.
  Status: proved. Proved for every criterion (oracle) and every emd2 (oracle, whose arguments are exhibited), with the default criterion identified as the cross entropy.
  Theorems: `C70_shapes`, `C70_cost`, `C70_default_criterion`, `C70_unequal_sizes`.
* **C71** MDD target loss compares each sample with its own pseudo-label. Indexing `[..., target]`. Expect refutation.
  Models: LossModel; specification: LossSpec; theorems in ThmLoss.
  Status: partial. REFUTED: indexing [..., target] pairs every sample with every pseudo-label, so the loss averages over all pairs (proved for every batch); witness with two samples where it differs. Proved: right when all pseudo-labels of the batch agree. The MDD loss around it is proved too.
  Theorems: `C71_all_pairs`, `C71_own_label_refuted`, `C71_agreeing_labels`, `C71_mdd_loss`.
* **C72** generated datasets have matching features and labels. Counting model with arbitrary RNG draws.
  Models: DataModel, GenModel, PipeModel; specification: DataSpec, GenSpec, LossSpec; theorems in ThmGen.
  Status: proved. Proved for every generator that returns arrays of the requested shapes (rand, randn, choice, normal are oracles with this contract), every shift, label mode, noise and standardisation: sizes, alignment, domain labels; the call succeeds for the documented arguments; the number of class-0 target samples under target_shift (binary and multiclass) is floor(8 n ratio).
  Theorems: `C72_sizes`, `C72_succeeds`, `C72_target_shift`.
* **C73** masking hides target labels in every step of a pipeline. The selector models chained over an arbitrary list of steps (`PipeModel`/`SelectModel`), two-run theorem by induction on the steps. Witness for SelectTarget followed by a masking step.
  Models: ChainModel, SelectModel, UtilsModel; specification: SelectSpec, Spec, UtilsSpec; theorems in ThmChain, ThmSelect.
  Status: partial. REFUTED: after a SelectTarget transformer, a later step with mask_target_labels=True is fitted on the true target labels, because labels stored in the container override the masked ones. Proved for pipelines of arbitrary selectors in which a masking Shared or PerDomain step comes first, or comes after SelectSource steps that return arrays.
  Theorems: `C73_any_selectors_partial`, `C73_chain_no_target_label_leak_partial`, `C73_select_target_then_masked_refuted`.
* **C74** cloning a domain-aware pipeline keeps its behaviour. `clone` of selectors as construction from `get_params`; the state the constructor does not know (final flag, masking flag) is followed. Witnesses by computation.
  Models: PipeModel, SelectModel; specification: PipeSpec, SelectSpec, Spec; theorems in ThmPipe.
  Status: partial. REFUTED: mask_target_labels=False is lost by clone (C74_clone_reenables_masking_refuted), the final flag too (C74_clone_loses_final_refuted), and a SelectSourceTarget cannot be cloned at all (C74_source_target_clone_fails_refuted, AttributeError in get_params). Proved: selectors of the other classes with the default masking keep class, estimator and masking.
  Theorems: `C74_clone_default_masking_partial`, `C74_source_target_clone_fails_refuted`, `C74_clone_reenables_masking_refuted`, `C74_clone_loses_final_refuted`.
* **C75** building a pipeline does not alter the pipelines given as steps. make_da_pipeline as a state change on the wrapped estimators; frame theorem for the steps that are not selectors, witness for a nested pipeline.
  Models: PipeModel, SelectModel; specification: PipeSpec, SelectSpec, Spec; theorems in ThmPipe.
  Status: partial. REFUTED: the inner pipeline's last step is unmarked in place. Proved: nothing but the final flag of the given selectors changes, other selectors not at all.
  Theorems: `C75_nesting_changes_inner_refuted`, `C75_nesting_frame_partial`.
* **C76** the name table returned by pack selects each domain's rows. pack with its name table; rows selected by a signed id compared with the rows of the named domain.
  Models: DataModel, PipeModel, UtilsModel; specification: DataSpec, Spec, UtilsSpec; theorems in ThmData.
  Status: partial. REFUTED when a name is used both as source and as target (as pack_lodo does): the table keeps only the target label. Proved for disjoint selections.
  Theorems: `C76_bunch_names_partial`, `C76_both_ways_refuted`.
* **C77** leave-one-domain-out packing contains every domain twice. pack_lodo: list of packed blocks; counting and sign spec. Witness for `return_X_y=False` being ignored.
  Models: DataModel, PipeModel, UtilsModel; specification: DataSpec, Spec, UtilsSpec; theorems in ThmData.
  Status: partial. REFUTED for the return type: the default return_X_y=True overrides it. Contents proved for every dataset whose first domain has int/float labels.
  Theorems: `C77_pack_lodo`, `C77_default_ignores_return_type_refuted`.
* **C78** qp_solve(frank-wolfe) converges to the constrained minimum. Frank-Wolfe rate: the classical O(1/t) bound by induction for symmetric positive semidefinite quadratics with a linear oracle; limit statement in epsilon form. Witness for a constraint matrix with one row.
  Models: FWModel; specification: FWSpec; theorems in ThmFW.
  Status: partial. REFUTED for a single inequality row (the solver minimises over A x = b). The O(1/k) rate and vanishing gap are proved for two-sided and equality constraints, any starting point (also infeasible), real arithmetic.
  Theorems: `C78_converges`, `C78_gap_vanishes`, `C78_single_row_refuted`.
* **C79** qp_solve(scipy) hands over exactly the documented problem. The arguments given to scipy.optimize.minimize are the result of the model; spec: objective, gradient, bounds and constraints of the documented problem.
  Models: CtorModel, DeepModel, FWModel, FactModel, LossModel, ModuleModel; specification: FWSpec, FactSpec; theorems in ThmFW, ThmLayers.
  Status: proved. scipy's minimiser itself is external. A matrix without its right-hand side is outside the model.
  Theorems: `C79_scipy_problem`, `C79_start`.
* **C80** refitting a KLIEP adapter equals fitting a fresh one. KLIEP fit as a state change of the estimator; refit compared with fit of a fresh object. Witness for a list of gammas.
  Models: FWModel, ReweightModel, SelectModel, UtilsModel; specification: FWSpec, ReweightSpec, Spec, UtilsSpec; theorems in ThmReweight.
  Status: partial. REFUTED for lists containing 'scale'/'auto' (fit overwrites the gamma argument by numbers). Proved for single bandwidths and lists of numbers; the selected bandwidth maximises the likelihood.
  Theorems: `C80_single_bandwidth`, `C80_selects_best_bandwidth`, `C80_refit_single_partial`, `C80_refit_numbers_partial`, `C80_refit_equals_fresh_fit_refuted`.
* **C81** MMDTarS weights depend only on the class. MMDTarS on discrete labels: class weights by Frank-Wolfe/oracle, scatter by class.
  Models: FWModel, ReweightModel, SelectModel, UtilsModel; specification: FWSpec, ReweightSpec, Spec, UtilsSpec; theorems in ThmReweight.
  Status: proved. Proved; the constraint bounds are conditional on the solver returning a point that meets the problem it was given.
  Theorems: `C81_tars_fit`, `C81_tars_weights`.
* **C82** MaNo normalises the logits of the model. MaNo softmax/taylor branch; softmax shown invariant, witness for the Taylor branch.
  Models: MetricsModel, ReweightModel, SelectModel, UtilsModel; specification: FWSpec, MetricsSpec, ReweightSpec, Spec, UtilsSpec; theorems in ThmMetrics.
  Status: partial. REFUTED: _get_criterion calls _stable_softmax, which subtracts the row maximum from the logits in place, so the Taylor normalisation sees shifted logits. Proved: the softmax branch is unaffected.
  Theorems: `C82_softmax_unaffected_partial`, `C82_taylor_refuted`.
* **C83** MaNo's normalisation never divides by zero. MaNo Taylor branch on 2 + 2x + x^2, witness with a zero denominator after the shift.
  Models: DeepModel, MetricsModel, ReweightModel, SelectModel, UtilsModel; specification: DeepSpec, FWSpec, MetricsSpec, ReweightSpec, SelectSpec, Spec, UtilsSpec; theorems in ThmHolds, ThmMetrics.
  Status: partial. REFUTED: logits (2, 0) become (0, -2), whose second-order Taylor values are equal. Proved: the normalisation gives probability vectors iff some logit differs from the largest by something other than 0 and 2, so with three or more distinct logits per row always.
  Theorems: `C83_defined`, `C83_three_distinct`, `C83_undefined`, `C83_taylor_zero_refuted`.
* **C84** TJM weights follow the samples. TJM source weights and their positions; witness with interleaved domains.
  Models: MapModel, SelectModel, UtilsModel; specification: MapSpec, Spec, UtilsSpec; theorems in ThmMap.
  Status: partial. REFUTED for interleaved layouts: the mask is in sample order, the projection rows are in the order sources, targets. Proved for sources-first layouts.
  Theorems: `C84_sources_first_partial`, `C84_interleaved_refuted`.
* **C85** MMD and centring matrices of TCA and TJM. Entries of the MMD and centring matrices over R; row sums by induction on index ranges.
  Models: MapModel, SelectModel, UtilsModel; specification: MapSpec, Spec, UtilsSpec; theorems in ThmMap.
  Status: proved. Proved over the reals for all sizes.
  Theorems: `C85_mmd_matrix`, `C85_centring_matrix`.
* **C86** CORAL gives the sources the covariance of the targets. CORAL over matrices as functions with eigendecomposition/square roots as oracle contract; covariance identity by matrix algebra. ThmSpectral proves that symmetric matrices have an orthonormal eigenbasis by induction: a border and the intermediate value theorem for the secular equation give one eigenvector, a reflection splits it off.
  Models: MapModel, SelectModel, UtilsModel; specification: MapSpec, Spec, UtilsSpec; theorems in ThmMap, ThmSpectral.
  Status: proved. Proved over the reals for every correct symmetric eigensolver (np.linalg.eigh is an oracle); C86_eigensolver_exists proves that one exists for every number of features, so the assumption can be met. Shrinkage is the subject of C155 and C208.
  Theorems: `C86_row_order`, `C86_assume_centered`, `C86_covariance_match`, `C86_moment_match`, `C86_square_roots`, `C86_eigensolver_exists`.
* **C87** MMDLSConS maps each source with its own coefficients. MMDLSConS: fit and the three transform cases (training rows, known classes, unseen class) with linear algebra as oracle.
  Models: MapModel, SelectModel, UtilsModel; specification: MapSpec, Spec, UtilsSpec; theorems in ThmMap.
  Status: proved. Proved for the three branches; a label unseen in fit silently gets zero coefficients (C87_unseen_class). The optimiser is an oracle.
  Theorems: `C87_training_sources`, `C87_known_classes`, `C87_nearest`, `C87_unseen_class`, `C87_fit`.
* **C88** JDOT label cost prefers the predicted class. JDOT class loss: real inequalities for cross entropy and hinge; witness for the binary hinge.
  Models: OTModel, UtilsModel; specification: OTSpec, Spec, UtilsSpec; theorems in ThmOT.
  Status: partial. REFUTED for the hinge metric with a one-dimensional decision (every binary classifier): the decision is duplicated, so both classes have the same cost for every score. Proved for log-probabilities, probabilities and decisions with one column per class.
  Theorems: `C88_label_cost`, `C88_better_class_is_cheaper`, `C88_more_probable_is_cheaper`, `C88_binary_hinge_refuted`.
* **C89** transported regression labels stay in the range of the source labels. Barycentric projection as convex combination; bounds by induction over the plan row.
  Models: OTModel, UtilsModel; specification: OTSpec, Spec, UtilsSpec; theorems in ThmOT.
  Status: proved. Proved over the reals.
  Theorems: `C89_moved_labels_in_range`, `C89_label_propagation_in_range`, `C89_jdot_fits_in_range`.
* **C90** JDOT never looks at target labels. JDOT data flow, two-run theorem.
  Models: OTModel, UtilsModel; specification: OTSpec, Spec, UtilsSpec; theorems in ThmOT.
  Status: proved. Proved for any solver.
  Theorems: `C90_jdot_inputs`, `C90_ignores_target_labels`.
* **C91** optimal-transport marginals are the normalised sample weights. Marginals handed to the OT oracle are the model's output; normalisation over R.
  Models: OTModel, UtilsModel; specification: OTSpec, Spec, UtilsSpec; theorems in ThmOT.
  Status: proved. Proved: two solvers agreeing on such vectors give the same results.
  Theorems: `C91_label_propagation_marginals`, `C91_jdot_regression_marginals`, `C91_jdot_classification_marginals`.
* **C92** JDOT classification weights. Rows with plan weights above the threshold; sums by induction.
  Models: OTModel, UtilsModel; specification: OTSpec, Spec, UtilsSpec; theorems in ThmOT.
  Status: proved. Proved over the reals.
  Theorems: `C92_class_weights`, `C92_weights_of_a_target`, `C92_threshold`.
* **C93** gradual adaptation ignores target labels. Gradual adaptation data flow; two-run theorem through the plan, witness where the plan sees target labels.
  Models: SelectModel, SelfModel, UtilsModel; specification: OTSpec, SelfSpec, Spec, UtilsSpec; theorems in ThmGrad.
  Status: partial. REFUTED at the interface: y[target] is passed to the transport method as yt, which may use it (a witness plan does; POT methods use labels other than -1). Proved: this is the only way target labels can matter.
  Theorems: `C93_only_through_the_plan`, `C93_target_labels_used_refuted`.
* **C94** fitting a gradual estimator leaves its parameters alone. max_iter as mutable attribute of the base estimator; growth by induction over steps.
  Models: SelectModel, SelfModel, UtilsModel; specification: OTSpec, SelfSpec, Spec, UtilsSpec; theorems in ThmGrad.
  Status: partial. REFUTED: max_iter of the base estimator is raised by 100 per step and never reset, so a second fit starts from the raised value and gives another classifier; a base_estimator of None is replaced by the default one. Proved: the exact value after fit.
  Theorems: `C94_max_iter_grows`, `C94_refit_refuted`.
* **C95** DASVM fit terminates without error. DASVM loop with explicit fuel and oracle classifier; completion under a bound on iterations, witnesses where fit raises.
  Models: SelectModel, SelfModel, UtilsModel; specification: OTSpec, SelfSpec, Spec, UtilsSpec; theorems in ThmDasvmEnd, ThmSelf.
  Status: partial. REFUTED: once all targets have been added and keep their labels the decision array is one-dimensional and np.sum(.., axis=1) raises AxisError (witness with two source and two target samples). Proved: fit raises iff this situation is reached within max_iter iterations and succeeds otherwise; it cannot be reached when 2 (max_iter - 1) is smaller than the number of targets.
  Theorems: `C95_exact`, `C95_completes_partial`, `C95_all_added_raises`, `C95_fit_raises_refuted`.
* **C96** DASVM only trains on remaining sources and pseudo-labelled targets. Training sets along the DASVM loop: invariant over an arbitrary number of iterations.
  Models: SelectModel, SelfModel, UtilsModel; specification: OTSpec, SelfSpec, Spec, UtilsSpec; theorems in ThmSelf.
  Status: proved. Proved for all iterations, with oracles for the base estimator.
  Theorems: `C96_training_sets`, `C96_target_labels_unused`.
* **C97** gradual adaptation is self-training along the interpolation. Gradual steps as fold over interpolation weights; equality with the specified self-training sequence.
  Models: SelectModel, SelfModel, UtilsModel; specification: OTSpec, SelfSpec, Spec, UtilsSpec; theorems in ThmGrad.
  Status: proved. Proved for every successful fit with a plan of the right shape.
  Theorems: `C97_self_training`.
* **C98** a merged dataset gives all its samples. Merged dataset and the loop of the loader; witness.
  Models: DeepModel, MetricsModel, SelectModel, UtilsModel; specification: DeepSpec, MetricsSpec, SelectSpec, Spec, UtilsSpec; theorems in ThmDeep, ThmHolds.
  Status: partial. REFUTED for merge(out=False): the sample numbers are not recomputed, so indexing past the old length raises IndexError and a loop silently stops there; the arrays are right and the old samples are unchanged. Proved for merge(out=True).
  Theorems: `C98_loop_misses_added_refuted`, `C98_new_dataset`, `C98_in_place`.
* **C99** missing labels and domains get the documented defaults. Defaults of DeepDADataset by case analysis on what is given.
  Models: DeepModel; specification: DeepSpec, Spec; theorems in ThmDeep.
  Status: partial. REFUTED for the documented integer sample_domain, which raises TypeError because len() is applied to it first (proved for all inputs); other defaults proved.
  Theorems: `C99_defaults`, `C99_int_domain_refuted`.
* **C100** predictions are one row per sample, whatever the batch size. Batching as chunks of a list with a row-wise module; concatenation by induction over the batches.
  Models: DeepModel; specification: DeepSpec, Spec; theorems in ThmDeep.
  Status: proved. Proved for modules that act on each sample separately (the module is an oracle), reals instead of floats. Feature and allow_source variants other than these two are not modelled.
  Theorems: `C100_target_rows`, `C100_all_rows`, `C100_arrays`.
* **C101** score is the accuracy on the scored samples. score as weighted mean of hits over R.
  Models: DeepModel; specification: DeepSpec, Spec; theorems in ThmDeep.
  Status: partial. REFUTED for data with both kinds of samples and allow_source=False: predictions for targets are compared with labels of all samples, which raises ValueError. Proved: equal to the accuracy with allow_source, or with target samples only.
  Theorems: `C101_accuracy`, `C101_weighted`, `C101_mixed_raises_refuted`.
* **C102** predict works without domain labels. Call path of predict without domain labels; witness.
  Models: DeepModel, MetricsModel, SelectModel, UtilsModel; specification: DeepSpec, MetricsSpec, SelectSpec, Spec, UtilsSpec; theorems in ThmDeep, ThmHolds.
  Status: partial. REFUTED: all samples get domain 0, a source domain, are dropped, and the concatenation of zero batches raises ValueError (proved for all inputs). Proved: with allow_source=True every sample is predicted.
  Theorems: `C102_no_domain_raises_refuted`, `C102_allow_source`.
* **C103** DeepCORAL compares covariances. Covariance entries over R; value, zero characterisation, shift invariance.
  Models: LossModel; specification: LossSpec; theorems in ThmLoss.
  Status: partial. REFUTED for assume_centered, which has no effect because torch.cov centres anyway (value proved for both settings, witness). The rest is proved.
  Theorems: `C103_value`, `C103_zero_iff`, `C103_shift`, `C103_assume_centered_refuted`.
* **C104** the DAN loss is a discrepancy. DAN: kernel mean discrepancy as a squared norm (PD kernel argument for the Gaussian kernels in `PDKernel`), bounds, symmetry.
  Models: LossModel; specification: LossSpec; theorems in ThmLoss.
  Status: partial. REFUTED for 'Gaussian': the kernel has the distance, not its square, in the exponent; no bandwidth makes it Gaussian. Everything else is proved for the kernel used, including non-negativity, through a proof that exp(-|x-y|/sigma) is positive definite in every dimension (PDKernel.v).
  Theorems: `C104_value`, `C104_default_bandwidths`, `C104_nonneg`, `C104_same_batch`, `C104_bounded`, `C104_symmetric`, `C104_gaussian_refuted`.
* **C105** CDD is the contrastive discrepancy of the confident samples. CDD: filter by distance threshold and class count; value against a spec, witnesses for the differences to the documentation.
  Models: LossModel; specification: LossSpec; theorems in ThmLoss.
  Status: partial. REFUTED: (a) the kernel sums within a class pair class samples with all samples and the cross term is divided by the square of the number of pairs (witness); (b) the cosine similarity is reduced over the centroids instead of the features, so far samples are used (witness). Proved: the exact value the code computes (C105_value, an explicit formula over pairs of samples) and which target samples are kept; no valid class gives 0; a batch with a single class and one cluster divides by zero.
  Theorems: `C105_needs_kmeans`, `C105_value_refuted`, `C105_filter_refuted`, `C105_value`, `C105_kept`, `C105_no_valid_class`, `C105_single_class_error`.
* **C106** every target sample has its own slot in the memory bank. Memory-bank slots by sample index; witness for two targets.
  Models: CallModel, LossModel; specification: CallSpec, LossSpec; theorems in ThmCall.
  Status: partial. REFUTED with two target domains: numbers restart in each domain, so samples of different domains share a slot. Proved for a single target domain.
  Theorems: `C106_single_target`, `C106_shared_slot_refuted`.
* **C107** spherical k-means descends and reports its inertia. Spherical k-means: descent of the objective over one step (Cauchy-Schwarz), iterated by induction.
  Models: CallModel, LossModel; specification: CallSpec, LossSpec; theorems in ThmCall, ThmKmeans.
  Status: partial. REFUTED for inertia_ of a run stopped by max_iter (the labels are older than the centres; witness). Proved: both half-steps and the whole run do not increase the objective, for unit samples whose cluster sums are zero or of norm at least 1e-8 (the clamp of cosine_similarity); inertia_ is right for a converged run; predict is scale-free above 1e-8.
  Theorems: `C107_descent`, `C107_steps`, `C107_inertia_converged`, `C107_predict_scale`, `C107_inertia_refuted`, `C107_nearest`, `C107_inertia_value`, `C107_never_worse`.
* **C108** source centroids are class sums. Class sums as filtered sums.
  Models: CallModel, LossModel; specification: CallSpec, LossSpec; theorems in ThmCall.
  Status: partial. REFUTED for labels other than 0..n-1 (classes dropped, or an exception). Proved for labels 0..n-1.
  Theorems: `C108_centroids`, `C108_other_labels_refuted`.
* **C109** CDAN conditions the discriminator on a fixed map. CDAN multilinear map: outer product, and random projection with the generator state threaded.
  Models: BuildModel, CallModel, CtorModel, DeepModel, FactModel, LossModel, MapModel, MmdlsModel, ViewModel; specification: CallSpec, CtorSpec, DeepSpec, LossSpec, Spec, ViewSpec; theorems in ThmCall, ThmTight.
  Status: partial. REFUTED: (a) the global generator is reseeded by every training batch when max_features is exceeded and an integer seed is given: its state afterwards is independent of its state before (proved for all states); (b) without a seed every batch gets another projection (witness). Multilinear map, widths and the fixed projection for a given seed are proved; the generator is an oracle.
  Theorems: `C109_multilinear`, `C109_width`, `C109_same_projection`, `C109_global_generator_refuted`, `C109_no_seed_refuted`, `C109_random_map`.
* **C110** SPA pseudo-labels come from the nearest stored neighbours. k nearest stored neighbours by stable sort of distances; averages over R.
  Models: CallModel, LossModel; specification: CallSpec, LossSpec; theorems in ThmCall.
  Status: proved. Proved for every selection topk may return, when K entries outside the batch exist; with fewer an entry of the batch is used (proved too). The value of the loss is proved; over the reals.
  Theorems: `C110_neighbours`, `C110_pseudo_label`, `C110_too_few`, `C110_loss`.
* **C111** class labels of the generated clusters name the clusters. Generators with arbitrary draws: labels by block. Witnesses for the subspace generator.
  Models: DataModel, GenModel, PipeModel; specification: DataSpec, GenSpec, LossSpec; theorems in ThmGen.
  Status: partial. REFUTED for shift='subspace' with label='multiclass': with odd n two samples of the second class carry label 0 (C111_subspace_mislabelled_refuted), with even n the four labels cut each of the two clusters in half (C111_subspace_split_refuted). Proved for the other shifts (C111_clusters: five clusters, five labels, with the affine maps) and for binary subspace labels.
  Theorems: `C111_clusters`, `C111_subspace_binary`, `C111_subspace_mislabelled_refuted`, `C111_subspace_split_refuted`.
* **C112** each shift changes what its name says. Shift generators with arbitrary draws; what stays equal between source and target.
  Models: DataModel, GenModel, PipeModel; specification: DataSpec, GenSpec, LossSpec; theorems in ThmGen.
  Status: proved. Proved; the random draws are oracles, so 'proportional' is about the weights handed to rng.choice. Floating point rounding is not modelled; sigma=0 features are left at 0 by the standardisation of the code and excluded by hypothesis.
  Theorems: `C112_covariate`, `C112_target`, `C112_conditional`, `C112_subspace`, `C112_labels_kept`, `C112_standardized`.
* **C113** regression labels are the density at the sample. Density formulas over R against the sample positions.
  Models: DataModel, GenModel, PipeModel; specification: DataSpec, GenSpec, LossSpec; theorems in ThmGen.
  Status: partial. REFUTED for shift='subspace': no mean/sigma of either dimension is accepted, because both a 2-d and a 1-d density are evaluated with the same parameters (C113_subspace_refuted, ValueError). Proved for the other shifts (C113_labels); the density is an oracle.
  Theorems: `C113_subspace_refuted`, `C113_labels`.
* **C114** shifted blobs are translated copies. Translation of rows; pointwise.
  Models: DataModel, GenModel, PipeModel; specification: DataSpec, GenSpec, LossSpec; theorems in ThmGen.
  Status: proved. Proved; make_blobs is the input, normal an oracle.
  Theorems: `C114_translation`, `C114_accepts`, `C114_labels`.
* **C115** moon positions place and number the domains. Moon centres over R; witness for the end position.
  Models: ChainModel, DataModel, GenModel, PipeModel, SelectModel, UtilsModel; specification: DataSpec, GenSpec, LossSpec, SelectSpec, Spec; theorems in ThmGen, ThmTight5.
  Status: partial. REFUTED at position 1: IndexError (C115_end_refuted). Proved for positions in [0,1): centres within pi/99 of the angle pi*pos on the two half circles, labels, sizes, domain numbers and names for all lists of positions (C115_centres, C115_layout).
  Theorems: `C115_centres`, `C115_end_refuted`, `C115_layout`, `C115_names`.
* **C116** signals are weighted per channel. Signals per channel: broadcasting of weights; witness.
  Models: DataModel, GenModel, PipeModel; specification: DataSpec, GenSpec, LossSpec; theorems in ThmGen.
  Status: partial. REFUTED: the weights multiply time step j of all channels instead of channel j (C116_weights_refuted, for every linear inverse pair rfft/irfft). Proved: labels, sizes, ValueError above 15 frequencies. Filters and FFT are oracles.
  Theorems: `C116_labels`, `C116_too_many`, `C116_dataset`, `C116_frequencies`, `C116_weights_refuted`.
* **C117** a selector offers the methods of the estimator it wraps. available_if of the selectors as method tables; case analysis on the wrapped estimator.
  Models: PipeModel, Sel2Model, SelectModel, UtilsModel; specification: SelectSpec, Spec; theorems in ThmSel2.
  Status: partial. REFUTED for SelectSourceTarget: predict is inherited with the check on base_estimator, an attribute it does not have, so it is never available (C117_source_target_predict_refuted); its other methods and all methods of the other selectors are proved. available_if is sklearn's (external): an exception in the check means 'no attribute'.
  Theorems: `C117_exposed`, `C117_source_target_partial`, `C117_source_target_predict_refuted`.
* **C118** SelectSourceTarget refuses a mixture of transformer and predictor. Kind of the wrapped estimators; witness for predictor first.
  Models: PipeModel, Sel2Model, SelectModel, UtilsModel; specification: SelectSpec, Spec; theorems in ThmSel2.
  Status: partial. REFUTED: only (transformer, predictor) is rejected; (predictor, transformer) is accepted (C118_predictor_first_refuted).
  Theorems: `C118_transformer_first_partial`, `C118_same_kind`, `C118_predictor_first_refuted`.
* **C119** score of a selector is the score of what it wraps. Score paths of the selectors; equality with the wrapped score.
  Models: PipeModel, Sel2Model, SelectModel, UtilsModel; specification: SelectSpec, Spec; theorems in ThmSel2.
  Status: partial. REFUTED: score through PerDomain and SelectSourceTarget never returns, since merging asserts ndarray outputs (C119_per_domain_score_refuted, C119_source_target_score_refuted, for every input and all numeric scores). Proved for Shared: the call on the wrapped estimator has exactly the labelled samples.
  Theorems: `C119_per_domain_score_refuted`, `C119_source_target_score_refuted`, `C119_per_domain_arrays`, `C119_source_target_arrays`, `C119_transform_without_labels`, `C119_shared_score_partial`.
* **C120** selector parameters can be read, set and cloned. get_params/set_params/clone of selectors as maps from names to values.
  Models: PipeModel, Sel2Model, SelectModel, UtilsModel; specification: SelectSpec, Spec; theorems in ThmSel2.
  Status: partial. REFUTED: mask_target_labels can neither be read nor set (C120_mask_not_a_parameter_refuted), and no parameter of SelectSourceTarget can (C120_source_target_refuted: AttributeError, also for clone). Proved for the other selectors: set-then-get, replacing the estimator, clone. Nested names (a__b): C229.
  Theorems: `C120_construct`, `C120_set_then_get`, `C120_replace_base`, `C120_mask_not_a_parameter_refuted`, `C120_source_target_refuted`, `C120_clone`.
* **C121** fit_transform works for transformers that define only fit and transform. fit_transform paths; equality with fit followed by transform.
  Models: PipeModel, Sel2Model, SelectModel, UtilsModel; specification: SelectSpec, Spec; theorems in ThmSel2.
  Status: partial. REFUTED for PerDomain (TypeError: _fit called without method_name, C121_per_domain_refuted) and SelectSourceTarget (AttributeError: routing_ is never set, C121_source_target_refuted), for every input. Proved for Shared under idempotent routing (no aliases).
  Theorems: `C121_shared_fit_then_transform`, `C121_labels_after`, `C121_per_domain_refuted`, `C121_source_target_refuted`.
* **C122** adapter output is never ignored silently by the final estimator. Metadata merge at the final estimator; every dropped key is reported or not.
  Models: PipeModel, Sel2Model, SelectModel, UtilsModel; specification: SelectSpec, Spec; theorems in ThmSel2.
  Status: partial. REFUTED: when the final estimator has no such argument at all the adapter's output is dropped without an error (C122_adapter_output_dropped_refuted), and under SelectSourceTarget the report itself fails with AttributeError (C122_source_target_report_refuted). Proved: what a predictor receives, and both reports for the other selectors.
  Theorems: `C122_predictor_receives`, `C122_unset_adapter_output_reported`, `C122_unset_user_parameter_reported`, `C122_adapter_output_dropped_refuted`, `C122_source_target_report_refuted`.
* **C123** inner transformers receive metadata like final ones. Inner transformers compared with final ones.
  Models: PipeModel, Sel2Model, SelectModel, UtilsModel; specification: SelectSpec, Spec; theorems in ThmSel2.
  Status: partial. REFUTED for aliases: the value arrives under the alias name (C123_alias_refuted). Proved without aliases and None values.
  Theorems: `C123_inner_transformer_partial`, `C123_alias_refuted`.
* **C124** flags and numbers reach the per-domain estimators. Scalars in the parameter dictionary of per-domain calls.
  Models: PipeModel, Sel2Model, SelectModel, UtilsModel; specification: SelectSpec, Spec; theorems in ThmSel2.
  Status: partial. REFUTED for PerDomain: every non-array value is indexed, TypeError (C124_per_domain_refuted: fit and prediction never return). Proved for SelectSourceTarget.
  Theorems: `C124_side_keeps_scalars`, `C124_per_domain_refuted`.
* **C125** Subspace alignment picks a workable number of components and the closest alignment. Least-squares optimality of the alignment matrix over R with orthonormal bases; default number of components as minimum of shapes; witness.
  Models: MapModel, SubModel; specification: MapSpec, SubSpec; theorems in ThmSub.
  Status: partial. REFUTED in part: without n_components the number of components is min(n, n_features) over both domains together, so fitting raises ValueError as soon as one domain has fewer samples than features (witness 5+5 samples, 8 features); proved: exactly when the default works, and optimality of the alignment matrix given orthonormal PCA components.
  Theorems: `C125_alignment_is_closest`, `C125_default_components`, `C125_own_domain`, `C125_default_refuted`.
* **C126** Transfer component analysis returns the solution of its optimisation problem. TCA kernel matrix entries, and the eigenproblem as contract of the solver; witness that the returned components do not minimise.
  Models: MapModel, SubModel; specification: MapSpec, SubSpec; theorems in ThmContracts, ThmSub.
  Status: partial. REFUTED: eigh reads only the lower triangle of the non-symmetric solution of the linear system, so the returned direction is not optimal (witness with 3 samples, linear kernel, mu = 1, for every correct solver). Proved: with mu = 0 or no mean gap the components are kernel PCA's, each optimal among the directions orthogonal to the previous ones. solve/eigh/argsort by contract. C126_contracts_met shows the contracts can be met.
  Theorems: `C126_contracts_met`, `C126_no_shift_case`, `C126_kernel_matrix`, `C126_not_optimal_refuted`.
* **C127** Transfer subspace learning minimises the loss of the chosen base method. Losses of PCA, FLDA, LPP against their definitions over R.
  Models: MapModel, SubModel; specification: MapSpec, SubSpec; theorems in ThmSub.
  Status: partial. REFUTED for flda (the loss is the between-class share of the scatter, minimised) and lpp (the loss is minus the neighbour spread); proved for pca.
  Theorems: `C127_pca`, `C127_flda_loss_is_separation_refuted`, `C127_flda_refuted`, `C127_lpp_loss_is_minus_spread_refuted`, `C127_lpp_refuted`.
* **C128** The domain discrepancy of transfer subspace learning is a discrepancy. Discrepancy formula over R; witness with a negative value.
  Models: MapModel, SubModel; specification: MapSpec, SubSpec; theorems in ThmContracts, ThmSub.
  Status: partial. REFUTED in part: the three kernels have different bandwidths and no normalisation, so the value can be negative (witness: eight samples at 0 and one at 1 against eight at 0 and one at 7). Proved: symmetric in the domains and zero on identical domains. inv and cholesky by contract. C128_contracts_met shows the contracts can be met.
  Theorems: `C128_contracts_met`, `C128_symmetric_and_zero`, `C128_negative_refuted`.
* **C129** Transfer subspace learning validates its arguments and returns an orthonormal projection. Constructor checks and the QR contract.
  Models: MapModel, SubModel; specification: MapSpec, SubSpec; theorems in ThmContracts, ThmSub.
  Status: proved. The optimiser (LBFGS) is arbitrary up to returning as many tensors as it got; QR by contract. C129_contract_met shows the contract can be met.
  Theorems: `C129_contract_met`, `C129_constructor`, `C129_orthonormal`, `C129_objective`.
* **C130** torch_minimize reports the loss of the point it returns. torch_minimize loop with optimiser oracle; the loss returned is that of the point returned.
  Models: MapModel, SubModel; specification: MapSpec, SubSpec; theorems in ThmSub.
  Status: proved. LBFGS is an arbitrary function; the gradient compared with the tolerance is the one left by the optimiser's last evaluation.
  Theorems: `C130_torch_minimize`.
* **C131** set_params and the constructor agree. Constructors and set_params as attribute tables for every public estimator class; case analysis over the classes.
  Models: CtorModel; specification: CtorSpec; theorems in ThmCtor.
  Status: partial. REFUTED: NearestNeighborReweightAdapter builds its classifier in the constructor, set_params is ignored by fit (C131_nearest_ignores, witness C131_nearest_refuted); TransferSubspaceLearning and KMM check their arguments only in the constructor. Proved for the fifteen adapters that only store their arguments; a clone of the nearest-neighbour adapter uses the settings.
  Theorems: `C131_plain`, `C131_unknown_refused`, `C131_nearest_ignores`, `C131_nearest_refuted`, `C131_nearest_clone`, `C131_checks_refuted`, `C131_kernel_check_refuted`.
* **C132** clone copies the whole configuration. clone = constructor applied to get_params, over the same tables.
  Models: CtorModel; specification: CtorSpec; theorems in ThmCtor.
  Status: partial. REFUTED: the extra keyword arguments of the JDOT estimators are lost by clone; a parameter set to None afterwards (density estimator, reg) makes clone raise RuntimeError. Proved for the storing adapters after any set_params and for freshly constructed instances of the checking ones. Nested estimators are identified with their clones.
  Theorems: `C132_plain`, `C132_jdot_refuted`, `C132_jdot_loses`, `C132_none_refuted`, `C132_fresh_clone`.
* **C133** Misspelt constructor arguments are refused. Signatures and keyword dictionaries.
  Models: CtorModel; specification: CtorSpec; theorems in ThmCtor.
  Status: partial. REFUTED for DASVMClassifier, which accepts and drops any extra argument (C133_dasvm_drops: always). Proved for the adapters; missing required arguments raise TypeError for every class.
  Theorems: `C133_unknown_refused`, `C133_missing_refused`, `C133_dasvm_refuted`, `C133_dasvm_drops`.
* **C134** Any estimator can be plugged in. Truth value of estimators (`base_estimator or default`); witness for an ensemble.
  Models: BuildModel, CallModel, CtorModel, DeepModel, FactModel, LossModel, MapModel, MetricsModel, MmdlsModel, ReweightModel, ScorerModel, SelectModel, UtilsModel, ViewModel; specification: CtorSpec, DeepSpec, MetricsSpec, ReweightSpec, Spec, UtilsSpec, ViewSpec; theorems in ThmCtor, ThmTight, ThmTight7.
  Status: partial. REFUTED: `x or default` takes the truth value of the estimator, which for an unfitted ensemble raises AttributeError. Proved for estimators without __len__, for None, and for JDOT and DASVM, which compare with None.
  Theorems: `C134_ensemble_refuted`, `C134_plain_estimator`, `C134_length`, `C134_default`, `C134_identity_test`, `C134_explicit_default`, `C134_defaults_usable`, `C134_left_out`.
* **C135** Pipelines built with default estimators are independent. Default arguments: evaluated once or per call, object identities on a heap.
  Models: CtorModel; specification: CtorSpec; theorems in ThmCtor.
  Status: partial. REFUTED for ClassRegularizerOTMapping (default argument created at import and shared: C135_class_reg_shared). Proved for the shorthands that create the default in the call.
  Theorems: `C135_per_call`, `C135_fresh`, `C135_class_reg_refuted`, `C135_class_reg_shared`.
* **C136** Features come from the layer asked for. Forward hooks on a named layer: heap of modules with a history invariant.
  Models: CallModel, DeepModel, LossModel, NetModel; specification: DeepSpec, NetSpec, Spec; theorems in ThmNet.
  Status: proved. Heap model of modules, hooks and cached activations; the user's network is an oracle producing a trace of named layer outputs. Proved for every history of constructions, copies, calls and training steps.
  Theorems: `C136_features`, `C136_returned`, `C136_unknown_layer`.
* **C137** Clones and repeated fits of deep nets are fresh and independent. Heap of modules with deepcopy; independence as frame property, witnesses for shared modules.
  Models: CallModel, DeepModel, LossModel, NetModel; specification: DeepSpec, NetSpec, Spec; theorems in ThmNet.
  Status: partial. REFUTED: after a fit the cached activations are non-leaf tensors, deepcopy raises and the net cannot be cloned (C137_trained_refuted: always); the second fit and the clone start from the trained weights of the module (C137_refit_refuted, C137_clone_weights_refuted); a CDAN clone loses max_features and the seed (C137_cdan_refuted). Proved: before training a copy always succeeds, and it is independent.
  Theorems: `C137_independent`, `C137_fitted`, `C137_clone_unfitted`, `C137_untrained`, `C137_trained_refuted`, `C137_refit_refuted`, `C137_clone_weights_refuted`, `C137_cdan_refuted`.
* **C138** A network that can be trained can predict. Parameter lists of a net with and without trainable parameters.
  Models: CallModel, DeepModel, LossModel, NetModel; specification: DeepSpec, NetSpec, Spec; theorems in ThmNet.
  Status: partial. REFUTED: prediction always passes sample_weight, so a network without this parameter can be trained but not used (C138_no_parameter_refuted); the CDAN module accepts no weights. Proved for networks with the parameter.
  Theorems: `C138_with_parameter`, `C138_no_parameter_refuted`, `C138_cdan_weights_refuted`.
* **C139** predict_proba returns probabilities and predict the most probable class. softmax probabilities and first argmax over R.
  Models: CallModel, DeepModel, LossModel, NetModel; specification: DeepSpec, NetSpec, Spec; theorems in ThmNet.
  Status: partial. REFUTED for a base criterion other than CrossEntropyLoss, where 'auto' is the identity (C139_other_criterion_refuted). Proved for the cross entropy; the labels never depend on the choice.
  Theorems: `C139_probabilities`, `C139_labels`, `C139_first_largest`, `C139_refused`, `C139_other_criterion_refuted`.
* **C140** predict_features keeps the rows in order. predict_features as concatenation over batches.
  Models: CallModel, DeepModel, LossModel, NetModel; specification: DeepSpec, NetSpec, Spec; theorems in ThmNet.
  Status: proved. Proved for features computed row by row (network in evaluation mode).
  Theorems: `C140_rows`, `C140_dataset`, `C140_empty`.
* **C141** The graph alignment loss compares the shape of the batches. Laplacian spectra with singular values as an oracle (permutation-invariant); invariance under permutations, motions, scaling, and the value.
  Models: AlignModel, CallModel, LossModel; specification: AlignSpec, CallSpec, LossSpec; theorems in ThmAlign.
  Status: proved. Singular values are an oracle with the contract singular_values of AlignSpec.v. Rigid motion: the same pairwise distances.
  Theorems: `C141_nonneg`, `C141_symmetric`, `C141_order`, `C141_rigid`, `C141_zero`, `C141_defined`, `C141_refused`, `C141_value`, `C141_cosine_scale`.
* **C142** Training schedules count every epoch once. Callback counters as a state machine over any number of epochs.
  Models: CallModel, DeepModel, LossModel, NetModel; specification: DeepSpec, NetSpec, Spec; theorems in ThmNet.
  Status: partial. REFUTED for a list of callbacks used for two nets: it is extended in place, and the epochs are counted twice (C142_list_refuted, for every list). Proved for None, one callback and a list used once.
  Theorems: `C142_default`, `C142_single`, `C142_list_once`, `C142_list_refuted`.
* **C143** Source-only and target-only baselines train on their own side. Domain-only samplers and the masks of the loss.
  Models: CallModel, DeepModel, LossModel, NetModel; specification: DeepSpec, NetSpec, Spec; theorems in ThmNet.
  Status: partial. REFUTED: TargetOnly cannot be trained with sample weights (C143_target_weights_refuted). Proved for training without weights: the loss is the base criterion on the own side only.
  Theorems: `C143_source_only`, `C143_target_only`, `C143_target_weights_refuted`.
* **C144** Default domain classifiers fit the features or are refused. Sizes of default domain classifiers, shape checks of Linear.
  Models: CallModel, DeepModel, LossModel, NetModel; specification: DeepSpec, NetSpec, Spec; theorems in ThmNet.
  Status: partial. REFUTED for MDD without n_classes: TypeError instead of ValueError (C144_mdd_refuted). Proved for DANN, SPA and CDAN and for MDD with n_classes.
  Theorems: `C144_dann`, `C144_cdan_refused`, `C144_cdan_size`, `C144_mdd_refuted`, `C144_mdd`.
* **C145** Gradient reversal trains the features against the domain classifier. Chain rule for a differentiable loss (gradient as linear approximation) and the reversal factor.
  Models: AlignModel, CallModel, LossModel; specification: AlignSpec, CallSpec, LossSpec; theorems in ThmAlign.
  Status: proved. Gradients in the sense of Frechet; the chain rule is proved (C145_chain). That autograd computes products with Jacobians is the contract of torch.
  Theorems: `C145_chain`, `C145_features`, `C145_classifier`.
* **C146** The SPA loss is the announced combination. SPA loss terms over R.
  Models: AlignModel, CallModel, LossModel; specification: AlignSpec, CallSpec, LossSpec; theorems in ThmAlign.
  Status: proved. Criterion and pseudo-label loss are inputs (the latter is C110).
  Theorems: `C146_nonneg`, `C146_start`, `C146_terms`.
* **C147** An interrupted download never corrupts later calls. File-system state machine with crash points between the steps of the download; witnesses for interruptions and concurrency.
  Models: FetchModel, GenModel; specification: FetchSpec; theorems in ThmFetch.
  Status: partial. REFUTED: the directory is created before the download, and only its existence is tested: after an interruption at any later step no call ever repairs the cache (C147_interrupted_refuted, for every history of later calls), Office-31 silently returns incomplete data with other labels (C147_silent_refuted), and a concurrent call sees the same (C147_concurrent_refuted). Proved for calls that are not interrupted.
  Theorems: `C147_completed`, `C147_no_rewrite`, `C147_early`, `C147_interrupted_refuted`, `C147_amazon_interrupted_refuted`, `C147_concurrent_refuted`, `C147_silent_refuted`.
* **C148** Office-31: every image once, with the label of its category. Office-31 directory tree as list of files; labels by category.
  Models: FetchModel, FiniteModel, FloatModel, GenModel, OTModel, SelectModel, UnitModel; specification: FetchSpec, OTSpec, Spec; theorems in ThmFetch, ThmTight2.
  Status: proved. Proved. listdir+sorted, loadmat and the random permutation are oracles with contracts (a reordering of the files; a permutation of the positions).
  Theorems: `C148_rows`, `C148_names`, `C148_same_labels`, `C148_refused`, `C148_categories`.
* **C149** Office-Home and Amazon reviews: domains partition the data, rows keep their labels. Office-Home and Amazon tables; partition by domain.
  Models: FetchModel, GenModel; specification: FetchSpec; theorems in ThmFetch.
  Status: proved. Proved; the csv file and the .mat files are lists of rows with labels.
  Theorems: `C149_one_of_all`, `C149_partition`, `C149_amazon`.
* **C150** MNIST-USPS: the fraction asked for, without repetition. MNIST-USPS sampling with an arbitrary draw.
  Models: FetchModel, GenModel; specification: FetchSpec; theorems in ThmFetch.
  Status: partial. REFUTED: rng.choice draws with replacement, so samples may be repeated and missing even for n_samples=1 (C150_all_refuted). Proved: number of rows, classes and labels, errors.
  Theorems: `C150_rows`, `C150_range`, `C150_all_refuted`.
* **C151** DEV: the default loss is the log-loss of the sample's label. Log-loss indexing of DEV; witness for labels not starting at zero.
  Models: DevModel, MapModel, MetricsModel, SelectModel, UtilsModel; specification: DevSpec, MapSpec, Spec, UtilsSpec; theorems in ThmDev.
  Status: partial. REFUTED: labels index the columns of an identity matrix, so labels other than 0..k-1 give the loss of another class or IndexError (C151_other_labels_refuted), float labels raise (C151_float_labels_refuted). Proved for integer labels 0..k-1.
  Theorems: `C151_labels_from_zero`, `C151_one_per_sample`, `C151_range`, `C151_other_labels_refuted`, `C151_float_labels_refuted`.
* **C152** DEV: the features compared are those the final estimator receives. Features extracted by DEV compared with what the final estimator receives.
  Models: DevModel, MapModel, MetricsModel, SelectModel, UtilsModel; specification: DevSpec, MapSpec, Spec, UtilsSpec; theorems in ThmDev.
  Status: partial. REFUTED: the steps are called through transform without domain labels, so mapping adapters leave sources unmapped (C152_same_features_refuted), SelectSourceTarget uses the target step for every sample (C152_source_target_refuted) and PerDomain raises KeyError (C152_per_domain_refuted). Proved for steps that ignore domain labels.
  Theorems: `C152_features`, `C152_domain_free`, `C152_sources_unmapped`, `C152_same_features_refuted`, `C152_source_target_refuted`, `C152_per_domain_refuted`, `C152_no_transform`, `C152_unnamed_layer`.
* **C153** KLIEP: the bandwidth maximises the likelihood of held-out targets. KLIEP cross-validation: folds, likelihood scores, argmax.
  Models: FWModel, Rew2Model, ReweightModel, SelectModel, UtilsModel; specification: FWSpec, Rew2Spec, ReweightSpec, Spec, UtilsSpec; theorems in ThmRew2.
  Status: proved. Proved. The draws of the centres and the kernel are arbitrary; KFold is modelled. The shuffled index of lines 532-534 is never used by the code, so the folds follow the order of the samples.
  Theorems: `C153_folds`, `C153_selected`, `C153_held_out`, `C153_refuses`, `C153_fit`.
* **C154** MMDTarS with continuous labels: bounded weights that depend on the label. MMDTarS on continuous labels: the problem handed over and the constraints of the weights.
  Models: FWModel, Rew2Model, ReweightModel, SelectModel, UtilsModel; specification: FWSpec, Rew2Spec, ReweightSpec, Spec, UtilsSpec; theorems in ThmRew2.
  Status: partial. REFUTED: on data other than those of fit the weight comes from the nearest sample in the feature space, not from the label, so equal labels may get different weights (C154_label_function_refuted). Proved: equal labels get equal fitted weights, bounds, nearest-neighbour rule.
  Theorems: `C154_fit`, `C154_problem`, `C154_lengths`, `C154_weights`, `C154_label_function_refuted`.
* **C155** Covariance estimates of CORAL and the Gaussian adapter. Covariance estimates over R with ledoit_wolf as oracle; translation invariance and definiteness.
  Models: CovModel, MapModel, ReweightModel, Sel2Model, SelectModel, UtilsModel, WrapModel; specification: CovSpec, MapSpec, ReweightSpec, Spec, UtilsSpec; theorems in ThmCov, ThmTight4.
  Status: partial. REFUTED: with the default reg="auto" assume_centered has no effect, the data are centred anyway (C155_assume_centered_refuted, for all data). Everything else proved. ledoit_wolf's intensity is an oracle in [0,1] of the centred entries; sklearn's scaler is modelled.
  Theorems: `C155_none`, `C155_number`, `C155_number_centered`, `C155_refused`, `C155_auto`, `C155_covariance`, `C155_definite`, `C155_translation`, `C155_assume_centered_refuted`, `C155_coral`, `C155_auto_constant`.
* **C156** Gaussian weights do not depend on the origin or the units. Ratios of Gaussian densities over R; affine changes of variable.
  Models: CovModel, MapModel, ReweightModel, SelectModel, UtilsModel; specification: CovSpec, MapSpec, ReweightSpec, Spec, UtilsSpec; theorems in ThmCov.
  Status: proved. Proved; the density is an oracle that depends on the difference to the mean and the covariance, multiplied by a constant under a change of units (contracts of the multivariate normal).
  Theorems: `C156_translation`, `C156_units`, `C156_no_shift`.
* **C157** The provided estimators accept domain information and can be chained. Wrapper estimators: accepted metadata, chaining, not-fitted checks.
  Models: CovModel, MapModel, ReweightModel, Sel2Model, SelectModel, UtilsModel, WrapModel; specification: CovSpec, MapSpec, Spec, WrapSpec; theorems in ThmTight4, ThmWrap.
  Status: partial. REFUTED: JDOTRegressor.predict/score request allow_source through the metadata of their parent class but their signatures refuse it, so passing it through a pipeline raises TypeError (C157_allow_source_refuted); fit of both JDOT estimators returns None, so fit(...).predict(...) raises AttributeError (C157_chain_refuted). What holds: C157_domain_information, C157_direct, C157_chain (DASVM, gradual), C157_not_fitted, C157_weights_not_dropped.
  Theorems: `C157_proba_offered`, `C157_domain_information`, `C157_direct`, `C157_direct_score`, `C157_allow_source_refuted`, `C157_chain_refuted`, `C157_chain`, `C157_not_fitted`, `C157_weights_not_dropped`.
* **C158** The array and dict views of a DeepDADataset give it back. DeepDADataset as record of lists; round trips with the array and dict views.
  Models: BuildModel, CallModel, CtorModel, DeepModel, FactModel, LossModel, MapModel, MmdlsModel, ViewModel; specification: CtorSpec, DeepSpec, Spec, ViewSpec; theorems in ThmTight, ThmView.
  Status: partial. REFUTED for weights: add_domain drops the weights of the dataset and of the added domain (C158_add_domain_weights_refuted). The views give the dataset back (C158_arrays, C158_dict, C158_repairs), add_domain adds exactly the samples whatever the form (C158_add_domain), domains/len are right.
  Theorems: `C158_dict_keys`, `C158_arrays`, `C158_arrays_without_weights`, `C158_dict`, `C158_dict_X`, `C158_repairs`, `C158_len`, `C158_domains`, `C158_add_domain`, `C158_add_domain_weights_refuted`.
* **C159** A refused change leaves a DeepDADataset as it was. Operations on the dataset as state changes that return the state also when they raise.
  Models: DeepModel, ViewModel; specification: DeepSpec, Spec, ViewSpec; theorems in ThmView.
  Status: partial. REFUTED: add_weights and merge(out=False) assign the attributes before the assertion, so a refused call leaves a dataset whose length raises AssertionError (C159_refused_weights_refuted, C159_refused_merge_refuted). What holds for every history, failures included: rows, labels and domains stay aligned (C159_rows), remove_weights makes the dataset usable again (C159_recover), successful histories keep weights aligned (C159_successful), type errors change nothing.
  Theorems: `C159_rows`, `C159_successful`, `C159_recover`, `C159_type_errors`, `C159_refused_weights_refuted`, `C159_refused_merge_refuted`, `C159_weights`.
* **C160** The shorthands build the documented pipeline. Factory shorthands as step lists compared with the documented pipeline.
  Models: CtorModel, DeepModel, FWModel, FactModel, LossModel, ModuleModel; specification: CtorSpec, FactSpec; theorems in ThmFact, ThmLayers, ThmTight3.
  Status: partial. REFUTED for LinearOTMapping: the default of reg is 1.0, documented (and used by the adapter class) as 1e-8 (C160_linear_default_refuted). All other arguments and defaults are passed on faithfully (C160_given, C160_defaults, C160_estimator), unknown names are refused, known ones accepted. OTLabelProp passes 0 where its adapter has None (both mean exact transport), excluded in C160_defaults.
  Theorems: `C160_given`, `C160_estimator`, `C160_defaults`, `C160_linear_default_refuted`, `C160_unknown`, `C160_accepts`, `C160_weights`, `C160_label_propagation_default`.
* **C161** Adapters see the role of a domain, not its name. Two-run theorem under a relabelling of the domains that keeps signs.
  Models: FWModel, MapModel, MetricsModel, OTModel, Rew2Model, ReweightModel, SelectModel, SelfModel, SplitModel, UtilsModel; specification: InvSpec; theorems in ThmInv.
  Status: proved. All theorems quantify over keeps_roles renamings (InvSpec.v). Selectors: the routing oracle must be blind to values (name_blind); sst_fit needs a sample_domain to be known. Multi-domain components are C162.
  Theorems: `C161_split`, `C161_merge`, `C161_weight_models`, `C161_weights`, `C161_maps`, `C161_kernel_maps`, `C161_estimators`, `C161_shuffle_split`, `C161_scores`, `C161_selectors`.
* **C162** The names of the domains only have to be different. Two-run theorem under an injective relabelling.
  Models: MapModel, OTModel, SelectModel, SplitModel, UtilsModel; specification: InvSpec, MapSpec, SelectSpec, Spec, UtilsSpec; theorems in ThmInv2.
  Status: proved. Order must be kept by the splitters because numpy.unique sorts the labels and the random draws follow that order; C162_leave_one_out also needs f(-d) = -f(d) since the splitter tests -d.
  Theorems: `C162_indices`, `C162_per_domain_fit`, `C162_per_domain_predict`, `C162_monge`, `C162_splitters`, `C162_label_propagation`, `C162_leave_one_out`.
* **C163** The order of the samples does not matter. Two-run theorem under a permutation of the samples, model by model.
  Models: CovModel, MapModel, MetricsModel, ReweightModel, SelectModel, UtilsModel; specification: CovSpec, MapSpec, MetricsSpec, OrderSpec, ReweightSpec, SelectSpec, Spec, UtilsSpec; theorems in ThmOrder, ThmOrder2.
  Status: proved. Specification in OrderSpec.v (same_samples, same_values). KMM and MMDTarS are outside the statement (their optimisers may return different minimisers), as are kernel fit_transforms (C41_interleaved_refuted: TCA/TJM return sources first).
  Theorems: `C163_density_fit`, `C163_discriminator_fit`, `C163_gaussian_weights`, `C163_kliep_weights`, `C163_density_weights`, `C163_discriminator_weights`, `C163_maps`, `C163_kernel_maps`, `C163_monge`, `C163_per_domain`, `C163_supervised`, `C163_entropy`, `C163_soft_neighborhood`, `C163_importance`, `C163_covariance`, `C163_moments_fit`.
* **C164** The deep losses do not depend on the order of a batch. Two-run theorem under a permutation of the batch for the deep losses.
  Models: LossModel; specification: LossSpec, OrderSpec; theorems in ThmOrder3.
  Status: proved. Values are real numbers; the graph alignment loss is C141_order. Deep JDOT needs the same of its OT solver and is not included.
  Theorems: `C164_deep_coral`, `C164_dan`, `C164_mcc`, `C164_mdd`, `C164_can`.
* **C165** The example networks treat samples one by one and have the announced sizes. torch.nn layers as real functions on lists; sizes by length computation, sample-wise by mapM.
  Models: CallModel, CtorModel, DeepModel, FWModel, FactModel, LossModel, ModuleModel, NetModel; specification: CallSpec, FactSpec, NetSpec; theorems in ThmDrop, ThmLayers, ThmModule.
  Status: proved. Proved for all weights and sizes; the non-linearity of ToyModule2D acts on single entries.
  Theorems: `C165_toy2d_training_average`, `C165_mnist_training_average`, `C165_mnist_first_dropout`, `C165_conv1`, `C165_conv3`, `C165_maxpool`, `C165_flatten`, `C165_pool`, `C165_linear`, `C165_relu`, `C165_toy2d_sample_wise`, `C165_toy2d_shape`, `C165_toy2d_proba`, `C165_dropout_mean`, `C165_cnn_num_features`, `C165_cnn_new`, `C165_cnn_sample_wise`, `C165_cnn_shape`, `C165_mnist_sample_wise`, `C165_mnist_accepts`, `C165_mnist_shape`.
* **C166** The deep methods accept the arguments their documentation lists. Signatures of the deep methods and the keyword names skorch accepts, as tables; case analysis.
  Models: AlignModel, BuildModel, CallModel, DeepModel, LossModel, NetModel; specification: BuildSpec, DeepSpec, NetSpec, Spec; theorems in ThmBuild.
  Status: partial. REFUTED in four ways: DeepJDOT and SPA document a parameter reg they do not have (TypeError, C166_reg_refuted); a module given as a class is refused (C166_module_class_refuted); with a criterion given as a class no batch has a loss (C166_base_class_refuted, C166_domain_class_refuted); the layer name SourceOnly and TargetOnly ignore according to their documentation must exist (C166_layer_ignored_refuted). Proved: all documented names of the other methods and all but reg of these two, in every combination, with training options; refusal of unknown and missing names.
  Theorems: `C166_names`, `C166_reg_refuted`, `C166_without_reg`, `C166_missing`, `C166_unknown`, `C166_module_class_refuted`, `C166_base_class_refuted`, `C166_domain_class_refuted`, `C166_layer_ignored_refuted`.
* **C167** The training loss is the announced combination. The builders return a configuration whose training loss is unfolded to the announced sum.
  Models: AlignModel, BuildModel, CallModel, CtorModel, DeepModel, FactModel, LossModel, MapModel, MmdlsModel, NetModel, ViewModel; specification: BuildSpec, CtorSpec, DeepSpec, NetSpec, Spec, ViewSpec; theorems in ThmBuild, ThmTight.
  Status: proved. The losses of the methods are those of C67, C70, C71, C103-C105, C110, C141; the value of the pseudo-label loss of SPA and the fitted k-means of CAN are inputs.
  Theorems: `C167_dann`, `C167_mdd`, `C167_divergences`, `C167_deepjdot`, `C167_spa`, `C167_baselines`, `C167_defaults`, `C167_base_default`, `C167_class_labels`.
* **C168** packing torch data. pack over domains that carry the kind of their containers, np.concatenate/torch.cat as list concatenation with their type errors; all return types. Theorems over every list of domains.
  Models: DataModel, DeepModel, PackModel; specification: PackSpec; theorems in ThmPack.
  Status: partial. REFUTED: with tensors and mask_target_labels=True the labels of the targets are returned in clear (C168_labels_visible_refuted, the dtype of a tensor is never one of the numpy types tested), a mask value makes the call raise TypeError unless arrays are asked for (C168_mask_value_refuted), arrays cannot be packed as tensors or DeepDADataset (C168_arrays_to_tensors_refuted), nor tensors without labels (C168_unlabelled_refuted). Proved: all return types without masking, and mask values with arrays or Bunch. Names are resolved as in DataModel; devices are not modelled.
  Theorems: `C168_tensors`, `C168_labels_visible_refuted`, `C168_mask_value_refuted`, `C168_mask_value_arrays`, `C168_arrays`, `C168_arrays_to_tensors_refuted`, `C168_unlabelled_refuted`.
* **C169** random_state decides the randomness. The generators are state machines in a world holding numpy's global generator, the instances and torch's generator; every draw of the splitters, loaders, scorers and KLIEP is modelled in order, and splits are computed lazily with arbitrary code of the caller in between. Proved by induction on the number of splits; validity of the splits by reduction to the theorems on SplitModel.
  Models: SeedModel, SelectModel, SplitModel, UtilsModel; specification: SeedSpec, Spec, SplitSpec, UtilsSpec; theorems in ThmSeed, ThmSeed2, ThmSeed3, ThmSeedRows, ThmTight6.
  Status: partial. REFUTED: the data set generators refuse the documented RandomState instance (C169_generated_instance_refuted), the default of random_state in the fetch functions is documented as 0 but is None, so a shuffled data set depends on numpy's generator (C169_fetch_default_refuted), and SphericalKMeans ignores its random_state, so two fits with the same integer differ (C169_clustering_ignores_seed_refuted, C169_clustering_refuted). Proved for the splitters, the subsampler, MixVal, DEV, KLIEP, SubspaceAlignment and shuffled loading. numpy's and torch's generators are arbitrary deterministic state machines; the reset of torch's global generator by CDAN is C109. LeaveOneDomainOut obtains its generator anew for each domain, so for it the claims on seeding before the call and on continuing are not made.
  Theorems: `C169_int_splits`, `C169_int_leave_one_out`, `C169_more_splits`, `C169_more_domains`, `C169_continue`, `C169_seeding_before`, `C169_int_others`, `C169_seeding_before_others`, `C169_int_kliep`, `C169_source_target_valid`, `C169_source_target_succeeds`, `C169_domain_shuffle_valid`, `C169_leave_one_out_valid`, `C169_stratified_valid`, `C169_shuffle_keeps_pairs`, `C169_generated_int`, `C169_generated_instance_refuted`, `C169_generated_none`, `C169_clustering_ignores_seed_refuted`, `C169_fetch_default_refuted`, `C169_clustering_refuted`, `C169_shuffle_rows`, `C169_pairing`, `C169_stratified_refused`.
* **C170** the value given to a sample does not depend on its companions. A selection of the samples is a list of flags. The closed forms already proved for every transform (C40, C41, C43, C86, C87) and weight computation (C34, C81) are pointwise in the samples, and selecting commutes with pointwise maps; the two normalised weights are compared through the ratio of their means. The two refutations evaluate the model on training data.
  Models: FWModel, MapModel, ReweightModel, SelectModel, UtilsModel; specification: MapSpec, OrderSpec, PartSpec, ReweightSpec, SelectSpec, Spec, UtilsSpec; theorems in ThmPart, ThmPart2.
  Status: partial. REFUTED on training data: KMM without smoothing returns the optimised weights when given exactly the training sources and kernel-smoothed values for a part of them (C170_kmm_training_refuted), and TCA and TJM return the rows of their training data in another order when sources and targets are mixed (C170_kernel_training_refuted). Holds for all other data, and for the kernel methods on any data with the sources first. NearestNeighborReweight is left out: its weights count the targets of the call. The fitted transport of the OT mappings is assumed to map rows one by one.
  Theorems: `C170_maps`, `C170_coral_centred`, `C170_ot_map`, `C170_kernel_maps`, `C170_kernel_maps_sources_first`, `C170_monge`, `C170_mmdls_classes`, `C170_mmdls_nearest`, `C170_kernel_training_refuted`, `C170_gaussian`, `C170_kliep`, `C170_density`, `C170_discriminator`, `C170_kmm`, `C170_mmdtars`, `C170_per_domain`, `C170_source_target`, `C170_kmm_training_refuted`.
* **C171** fetched data sets hold every domain and can be packed for training. The public functions are written over the loaders and the disk of C147-C149: resolution of the domain argument, loop over the enumeration with add_domain, choice of the container; the csv reader delivers rows of fields. Induction on the enumeration gives the dataset, C24 the masked labels; Office-Home: every domain has labels of another dtype, so the masked and the unmasked loop of pack are equal step by step.
  Models: DataModel, Fetch2Model, FetchModel, PipeModel; specification: DataSpec, Fetch2Spec, FetchSpec, Spec, UtilsSpec; theorems in ThmFetch2, ThmFetch3.
  Status: partial. REFUTED: the labels of Office-Home are strings, which pack never masks, so mask_target_labels=True changes nothing (C171_home_visible_refuted); those of Amazon reviews are floats, masked by NaN, so that the two classes count as values of a regression (C171_amazon_regression_refuted); fetch_amazon_review and fetch_office_home return a DomainAwareDataset instead of the documented Bunch (C171_container_refuted). Everything else is proved, including the masking of Office-31. str.lower is modelled on ASCII letters.
  Theorems: `C171_any_case`, `C171_unknown`, `C171_all`, `C171_all_raises`, `C171_office31_hidden`, `C171_amazon_regression_refuted`, `C171_home_all`, `C171_home_visible_refuted`, `C171_container`, `C171_container_refuted`, `C171_csv`, `C171_csv_refused`, `C171_data_home`.
* **C172** the scoring argument and the options of the scorers do what they say. Callables are modelled with the keywords they accept, so that an unexpected keyword is a TypeError; check_scoring, scorer objects and the score method are written over them and plugged into the scores of C44, C45 and C50. The failing cases follow by showing that no path of those scores avoids the call.
  Models: MetricsModel, ReweightModel, ScorerModel, SelectModel, UtilsModel; specification: MetricsSpec, ReweightSpec, Spec, UtilsSpec; theorems in ThmScorer, ThmTight7.
  Status: partial. REFUTED: a metric name makes SupervisedScorer raise TypeError on every input (C172_string_supervised_refuted), and makes the other two fail as well because sample_domain is handed on to the metric (C172_string_refuted); a function with the documented signature scorer(estimator, X, y) never yields a score either (C172_function_refuted). None and functions that accept the extra keywords work as described, and so do the options.
  Theorems: `C172_none_supervised`, `C172_function_supervised`, `C172_function_importance`, `C172_function_mixval`, `C172_string_supervised_refuted`, `C172_function_refuted`, `C172_string_refuted`, `C172_unknown`, `C172_options`, `C172_made_supervised`, `C172_made_mixval`.
* **C173** scoring leaves the estimators alone and has no memory. Estimators are objects on a growing heap, a scorer is the record of the attributes scoring writes. Each scoring is written with its writes and reads in program order; its value is shown equal to the memoryless scores of C45, C48, C49, C51, and the heap to be extended only; induction over the series of calls.
  Models: MetricsModel, ReweightModel, ScorerModel, SelectModel, UtilsModel; specification: in the statements; theorems in ThmScorer2.
  Status: proved. The methods of an estimator other than fit only read it (trusted); random splits are inputs, so the claim is about equal draws.
  Theorems: `C173_estimators`, `C173_like_new`, `C173_order`, `C173_recorded`, `C173_value`, `C173_kept`.
* **C174** adapters that compare samples by distance do not depend on the coordinates. The models of the adapters are polymorphic in the rows and take the kernel as an argument; each step (selection, splitting, kernel matrix, loop, lookup of equal arrays) is shown to commute with a map on rows that preserves the kernel, then composed for fit followed by a later call.
  Models: FWModel, MapModel, OTModel, Rew2Model, ReweightModel, SelectModel, UtilsModel; specification: Spec; theorems in ThmCoord.
  Status: proved. Exact arithmetic. For any change of representation that keeps the kernel between two samples; C174_instances gives the rbf kernel, the distance and array equality under motions of R^d. The solvers get the kernel matrices; a solver looking at anything else is excluded by its type. The bandwidth chosen by gamma="scale" does depend on the origin (X.var() is taken over all entries), so shifts need a bandwidth given as a number (C174_scale_sees_origin).
  Theorems: `C174_motion`, `C174_kliep`, `C174_kliep_cv`, `C174_density`, `C174_kmm`, `C174_nearest`, `C174_mmdtars`, `C174_mmdtars_continuous`, `C174_kernel_maps`, `C174_labels`, `C174_instances`, `C174_units`, `C174_scale_sees_origin`.
* **C175** fitting again forgets the past. Each method is a program over the attributes of the object, run with arbitrary meanings of its lines. A definite-assignment check is proved sound (two objects that agree on the attributes known so far give the same results and still agree), it is evaluated on the table of all classes, and histories are handled by induction.
  Models: HistModel; specification: in the statements; theorems in ThmHist.
  Status: proved. What a line computes is arbitrary; which attributes it reads and writes, on which branch and in which order, is transcribed from the source (HistModel). Excluded: a random_state that is a generator object (C169), parameters changed after __init__ derived an attribute from them (NearestNeighborReweightAdapter.base_estimator and _is_transformer of the selectors, see C131), base estimators whose own fit depends on earlier fits (warm_start). C175_ex_table shows that the same check rejects KLIEPReweightAdapter and GradualEstimator.
  Theorems: `C175_parameters`, `C175_reading`, `C175_forget`.
* **C176** classes are names. unique, searches, comparisons and one-hot encodings commute with an order-preserving map; each method is then followed line by line with both sets of labels, errors included.
  Models: MapModel, MetricsModel, OTModel, SelectModel, SelfModel, SplitModel, SubModel, UtilsModel; specification: in the statements; theorems in ThmName.
  Status: proved. The base estimators and scorers are arbitrary, with the contract that renaming their training labels renames what they learn and predict. Not included because the classes are numbers or indices there: the label propagation of several domains (JCPOT) returns indices of classes (C53), MMDTarSReweightAdapter computes a kernel of the labels as numbers (_reweight.py 1257), and the deep losses use labels as indices.
  Theorems: `C176_jdot`, `C176_label_prop`, `C176_tsl`, `C176_stratified_split`, `C176_dasvm`, `C176_mmdls`, `C176_mixval`, `C176_circular`.
* **C177** KMM and MMDTarS match the mean of the target in the feature space of the kernel. The quadratic form and the linear term are rewritten through the feature map as n^2/2 times (squared distance of the means minus a constant), by exchanging finite sums; minimality then comes from the contract of the solver, and the rate from C78 with the curvature bounded through |kern(x,y)| <= kappa and the l1 norm of the weights.
  Models: FWModel, MapModel, OTModel, ReweightModel, SelectModel, TarsModel, UtilsModel; specification: FWSpec, MapSpec, OTSpec, ReweightSpec, Spec, UtilsSpec; theorems in ThmAttain, ThmMmd, ThmRbf.
  Status: proved. The feature map of the theorems has finite dimension. C177_feature_map shows that the rbf kernel, the default, has one on every finite data set, and C177_rbf_scipy, C177_rbf_frank_wolfe and C177_rbf_mmdtars state the results for it without that hypothesis. The scipy solver is external: its contract is that it returns a minimiser among the points meeting the constraints it received; C177_kmm_solver_exists and C177_mmdtars_solver_exists show that for every data set some solver meets it. The frank-wolfe bound needs no contract; there B is not enforced (see C39) and the bound holds for all competing non-negative weights, also those above B. MMDTarS is modelled for class labels; its matrix inverse and its label kernel are arbitrary.
  Theorems: `C177_kmm_solver_exists`, `C177_mmdtars_solver_exists`, `C177_kmm_scipy`, `C177_kmm_frank_wolfe`, `C177_mmdtars`, `C177_feature_map`, `C177_kmm_scipy_on`, `C177_rbf_frank_wolfe`, `C177_rbf_scipy`, `C177_rbf_mmdtars`.
* **C178** the iteration of JDOT descends and stops by itself. Invariant of the loop: the cost matrix of the next iteration is the total cost for the predictor found last, and the last plan costs at most the last loss there. The estimator step: the label cost of a plan differs from the weighted loss of the estimator by a constant (bias-variance, regression) or a factor (classification).
  Models: FWModel, MapModel, OTModel, ReweightModel, SelectModel, TarsModel, UtilsModel; specification: FWSpec, MapSpec, OTSpec, ReweightSpec, Spec, UtilsSpec; theorems in ThmAttain, ThmJdot, ThmJdot2.
  Status: proved. With a positive thr_weights (C178_threshold) the dropped weights are missing from the loss that the estimator minimises, so descent holds up to what they cost; there target weights are uniform. The estimator must predict rowwise; a regularised base estimator minimises another objective and is not covered. The scoring functions of the hinge metric must have one column per class, since a 1-D decision of a binary classifier is repeated in two columns (C88). C178_solver_exists: an exact transport solver exists, answering every problem with non-negative masses of equal sums.
  Theorems: `C178_solver_exists`, `C178_regression`, `C178_classification`, `C178_threshold`.
* **C179** unsupervised scorers never look at target labels. The checks of the input only use the number of labels when domains are given; then each score is rewritten through the selected source labels, which agree.
  Models: MapModel, MetricsModel, OTModel, Rew2Model, ReweightModel, SelectModel, SelfModel, UtilsModel; specification: Spec; theorems in ThmLeak.
  Status: proved. When sample_domain is not given the domains are guessed from the masked labels, so the target labels matter there by design (C06). SupervisedScorer uses the target labels on purpose (C44).
  Theorems: `C179_no_target_labels`, `C179_classification`, `C179_circular`.
* **C180** adapters and estimators never look at target labels. source_target_split and per_domain_split give the same source halves and fail together for label vectors that agree on the sources; the target halves are dropped.
  Models: MapModel, MetricsModel, OTModel, Rew2Model, ReweightModel, SelectModel, SelfModel, UtilsModel; specification: Spec; theorems in ThmLeak.
  Status: proved. Not included: the mapping adapters based on the transports of POT and GradualEstimator hand the target labels to POT, which uses those that are not -1 (semi-supervised transport, _mapping.py 61; see C93 for the gradual estimator); inside a pipeline these labels are masked (C13, C73). The other adapters receive no labels.
  Theorems: `C180_reweighting`, `C180_mapping`, `C180_propagation`, `C180_dasvm`.
* **C181** only the proportions of the sample weights matter. The marginals divide by their sum, so a positive factor cancels; the loop of JDOT is followed by induction.
  Models: OTModel, SelectModel, UtilsModel; specification: Spec; theorems in ThmScale.
  Status: proved. JDOTRegressor passes the target weights as they are to its base estimator, hence the condition.
  Theorems: `C181_propagation`, `C181_jdot`.
* **C182** a pipeline trains its final estimator on the adapted sources. Induction over the adapters with the masked labels as an invariant (masking twice changes nothing), then the removal of masked samples at the final step rewritten as the selection of sources or targets.
  Models: SelectModel, UtilsModel; specification: SelectSpec, Spec, UtilsSpec; theorems in ThmTrain.
  Status: proved. Class labels of sources must not be -1 and continuous labels of sources must be finite, since those values mean masked (C11). A routed parameter that is a Python list with one entry per sample is excluded: indexing it fails (C11).
  Theorems: `C182_trained_on_adapted_sources`, `C182_trained_on_propagated_targets`.
* **C183** a fitted pipeline predicts samples one by one. Each selector is rewritten as a function applied to each pair of label and row (C15, C18 give the rows of every domain; rows of all domains determine the array), then induction over the steps.
  Models: PredictModel, Sel2Model, SelectModel, UtilsModel; specification: SelectSpec, Spec, UtilsSpec; theorems in ThmPredict.
  Status: proved. That the adapters themselves treat samples one by one is C170. Simplification: every step receives the same parameters (sample_domain).
  Theorems: `C183_one_by_one`, `C183_batches`.
* **C184** after a successful fit nothing is missing. Method bodies are programs over attributes (HistModel). A check by computation that every attribute read was put before, sound for all outcomes by induction over histories.
  Models: HistModel; specification: in the statements; theorems in ThmHist2.
  Status: proved. The non-final fit_transform of SelectSourceTarget is outside: it never succeeds (C184_source_target_outside, see C121). Outcomes of computations, including exceptions, are arbitrary.
  Theorems: `C184_nothing_missing`, `C184_source_target_outside`.
* **C185** multi-domain Monge alignment gives every domain the same first two moments. Symmetric square roots from the spectral theorem; the Bures-Wasserstein matrix A satisfies A C A = B, so the mapped moments are those of the barycentre; rows of a domain are looked up by its label.
  Models: MapModel, MongeModel; specification: CovSpec, MapSpec; theorems in ThmMonge.
  Status: proved. Contracts of POT's bures_wasserstein_barycenter: it returns a covariance; zero means give a zero mean; one domain is its own barycentre. The eigensolver is an oracle (MapModel).
  Theorems: `C185_same_moments`, `C185_same_second_moments`, `C185_single_source`.
* **C186** when the domains already agree, nothing is adapted. The whitening and colouring matrices are inverse to each other (roots are unique); ratios of equal densities are one; the weights 1 reach discrepancy 0, so a minimiser does; a permutation gives a plan of cost 0, so an exact plan moves mass between equal rows only. Equal log-densities give equal ratios, so the importance-weighted scorer gets weights 1/n.
  Models: CoralRegModel, CovModel, FWModel, MapModel, MetricsModel, MongeModel, OTModel, ReweightModel, SelectModel, UtilsModel; specification: CovSpec, MapSpec, OTSpec, ReweightSpec, Spec, UtilsSpec; theorems in ThmCoralAuto, ThmCoralReg, ThmSame, ThmSame2.
  Status: partial. REFUTED for CORAL's default reg="auto": the intensity of Ledoit-Wolf depends on the number of samples, so sources and targets with equal covariances but different sample sizes are changed (C186_coral_auto_refuted). Proved for reg=None and every number, and for every reg when the two data sets are the same (C186_coral_reg); the other methods as stated. KMM: solver scipy, B >= 1, with a minimiser as in C177. OT label propagation: an exact plan for a cost that is zero only on equal rows, no sample weights, equal sources with equal labels.
  Theorems: `C186_coral_auto_refuted`, `C186_coral_number`, `C186_coral_reg`, `C186_coral`, `C186_coral_centred`, `C186_monge`, `C186_density`, `C186_discriminator`, `C186_kmm`, `C186_label_propagation`, `C186_label_propagation_regression`, `C186_importance_scorer`.
* **C187** alignment does not depend on how the features are measured together. The covariance of moved data is the conjugated, scaled covariance; positive semi-definite roots are unique, so its root and inverse root are the conjugated ones whatever eigenvectors the solver picks; the orthogonal factors cancel in the products. The trace is invariant under rotations, so shrinking by a number commutes with them; shrinking towards the diagonal does not.
  Models: CoralRegModel, CovModel, MapModel, MongeModel; specification: CovSpec, MapSpec; theorems in ThmCoralAuto, ThmCoralReg, ThmTurn.
  Status: partial. REFUTED for CORAL's default reg="auto", which shrinks towards the variances of the single features: sources with variances 1 and 9 and white targets, turned by a rotation, are not mapped to the turned images (C187_coral_auto_refuted, for every amount of shrinkage). Proved for reg=None and every number (C187_coral_number), and for the Monge alignment. Contract of POT's bures_wasserstein_barycenter (moves_along): the barycentre of moved Gaussians is the moved barycentre. The eigensolver is an oracle: only its contract is used, so it may choose other eigenvectors for the moved data.
  Theorems: `C187_coral_auto_refuted`, `C187_coral_number`, `C187_coral_sources`, `C187_coral_targets`, `C187_coral_centred`, `C187_monge`.
* **C188** what a check has accepted is accepted again. Case analysis of the two functions; the flag checks are monotone and depend on the returned domain labels only.
  Models: UtilsModel; specification: Spec, UtilsSpec; theorems in ThmCheck.
  Status: proved. At least as much: every flag that is on stays on, and allow_domains keeps its entries or is None.
  Theorems: `C188_X`, `C188_X_y`, `C188_X_y_then_X`.
* **C189** the final estimator is asked about the features it was trained on. Induction over the steps: the container and the parameters after each fitted step agree on the source rows with those met during fit.
  Models: PredictModel, Sel2Model, SelectModel, UtilsModel; specification: SelectSpec, Spec, UtilsSpec; theorems in ThmFeatures.
  Status: proved. Steps are Shared selectors whose fit_transform returns the rows of their fitted transform, which may depend on the domain of the sample.
  Theorems: `C189_same_features`.
* **C190** giving every sample several times changes nothing. Sums over k tiled copies are k times the sum (induction on k), and every statistic used divides by the number of rows.
  Models: CovModel, LossModel, MapModel, MetricsModel, MongeModel, ReweightModel, SelectModel, UtilsModel; specification: CovSpec, LossSpec, MapSpec, MetricsSpec, Spec, UtilsSpec; theorems in ThmCopies.
  Status: proved. The Ledoit-Wolf shrinkage ("auto") depends on the sample size and is excluded, as is the DeepCORAL loss, whose covariances divide by n - 1. For the scores both calls are assumed to succeed and all copies are tiled over both domains.
  Theorems: `C190_coral`, `C190_coral_maps`, `C190_gaussian`, `C190_monge`, `C190_entropy`, `C190_mano`, `C190_dan`.
* **C191** leaving an argument out means its documented default. The docstrings' defaults are written out as a table (specification); a general lemma says that giving an argument with a default binds it and nothing else; the table is compared with the signatures entry by entry.
  Models: CtorModel, DeepModel, FWModel, FactModel, LossModel, ModuleModel; specification: FactSpec; theorems in ThmDefaults, ThmLayers.
  Status: partial. REFUTED: KMMReweightAdapter documents max_iter=100 but uses 1000, and the frank-wolfe solver of qp_solve does not start from ones. All other documented defaults (82 of them, over twenty classes) are proved, as are the estimators used when none is given.
  Theorems: `C191_defaults_partial`, `C191_kmm_refuted`, `C191_default_estimator`, `C191_starting_point_refuted`.
* **C192** the clusters of CAN are the classes. The callback is modelled as centroids followed by k-means; separation makes the assignment step return the classes, the update step the class directions, which are a fixed point.
  Models: CallModel, CanModel, LossModel; specification: CallSpec, LossSpec; theorems in ThmCan.
  Status: proved. Source labels 0, ..., n-1, each class being present on both sides (for other labels see C108); features and mean directions of norm at least 1e-8 (the clamp of cosine_similarity).
  Theorems: `C192_clusters_are_classes`.
* **C193** optimal transport methods follow a recalibration of the features. A recalibration with positive factors has potentials u, v such that the cost minus u minus v is non-negative and zero between copies only; hence an optimal coupling of uniform masses couples copies only; labels and barycentres follow.
  Models: MapModel, OTModel, SelectModel, UtilsModel; specification: MapSpec, OTSpec, Spec, UtilsSpec; theorems in ThmRecal.
  Status: proved. The solver is an oracle constrained to return an optimal coupling of the given masses (exact_plan, optimal_plan); POT's transform of the training samples is the barycentric one (barycentric). Finite numbers are exact.
  Theorems: `C193_label_propagation`, `C193_label_propagation_regression`, `C193_mapping`.
* **C194** KLIEP maximises the likelihood of the targets. The loop is identified with the iterates of an explicit ascent step (induction on the iterations); the gradient is computed with the standard library's derivatives; the refutation evaluates two iterations exactly and bounds logarithms.
  Models: ReweightModel, SelectModel, UtilsModel; specification: ReweightSpec, Spec, UtilsSpec; theorems in ThmKliep.
  Status: partial. REFUTED: the gradient step has the size of the rounding error of 64-bit floats (EPS = 2^-52, _reweight.py lines 35 and 513), so the iteration converges, by its own criterion, at the projection of the initial coefficients: for three sources at 0 and one at 2, one target at 0 and one at 2, all source weights are within 5% of 1 although weights 2/3 and 2 (the true ratio of the densities) are admissible and more likely by a factor of at least exp(1/5) (C194_likelihood_refuted). Proved: the iteration follows the gradient (C194_gradient) and obeys its stopping rule (C194_iterations).
  Theorems: `C194_likelihood_refuted`, `C194_iterations`, `C194_gradient`.
* **C195** MMDLSConS minimises the MMD with a Gaussian kernel. The objective is modelled line by line with matrices as functions (MmdlsModel) and rewritten, by exchanging finite sums, into the squared discrepancy of weighted samples; the refutations compare explicit one-dimensional data sets with bounds on exp.
  Models: BuildModel, CallModel, CtorModel, DeepModel, FactModel, LossModel, MapModel, MmdlsModel, ViewModel; specification: CtorSpec, DeepSpec, Spec, ViewSpec; theorems in ThmMmdls, ThmTight.
  Status: partial. REFUTED: the kernel is exp(-gamma |x - y|), the distance is not squared (_mapping.py lines 1054, 1078, 1079), so for two targets the function prefers a source on top of one of them to the middle, which the Gaussian kernel prefers (C195_gaussian_refuted); and the matrix regularised by reg_k is the kernel matrix of the source features, not of the labels, so sources of one class get different weights (C195_label_kernel_refuted). Proved: with the kernel and weights used, the function is the announced sum up to a term of the targets only (C195_objective), the regulariser vanishes exactly at the identity, classes have their own maps and the start is the identity. torch.linalg.inv is an oracle constrained to invert; numbers are exact reals.
  Theorems: `C195_objective`, `C195_regulariser`, `C195_classes`, `C195_gaussian_refuted`, `C195_label_kernel_refuted`, `C195_label_kernel`, `C195_numbers`.
* **C196** every documented argument has an effect. Method bodies are programs over attributes (HistModel). A parameter no line reads changes nothing, by the two-run agreement lemma of C175; for the others a concrete meaning of the lines (each adds up what it is given) separates two values, by computation over all 128 parameters.
  Models: DataModel, GenModel, HistModel, MapModel, ParamModel, UtilsModel; specification: MapSpec; theorems in ThmParam.
  Status: partial. REFUTED: test_time of MultiLinearMongeAlignmentAdapter and verbose of JCPOTLabelPropAdapter are never read (C196_test_time_refuted, C196_verbose_refuted), a new target domain is a KeyError whatever test_time is (C196_unseen_domain_refuted), and center and sigma_ch of two generators do nothing (C196_center_refuted, C196_sigma_ch_refuted; there the model's signature has the argument and its body, modelled from the code, does not). SphericalKMeans.random_state is C169. Proved for all other parameters: for some meaning of the lines the parameter makes a visible difference; that the real computations do is not claimed.
  Theorems: `C196_matters`, `C196_test_time_refuted`, `C196_verbose_refuted`, `C196_unseen_domain_refuted`, `C196_center_refuted`, `C196_sigma_ch_refuted`.
* **C197** parameters set on a fitted estimator wait for the next fit. The same agreement lemma for the methods that do not fit, from an arbitrary state; the exceptions are an explicit table, with numeric witnesses in the models of CORAL and of the kernel methods.
  Models: DataModel, GenModel, HistModel, MapModel, ParamModel, UtilsModel; specification: MapSpec; theorems in ThmParam.
  Status: partial. REFUTED for twelve parameters that methods read after fitting (the exact table read_later): assume_centered of CORALAdapter changes what a fitted adapter returns (C197_coral_refuted), and a kernel set on a fitted TCA or TJM is combined with the projection of the old kernel (C197_kernel_refuted). Proved for all others, for every meaning of the lines, every state and every sequence of calls (C197_waits, C197_until_fit).
  Theorems: `C197_waits`, `C197_until_fit`, `C197_coral_refuted`, `C197_kernel_refuted`.
* **C198** aligning twice is aligning once. The first alignment gives every domain the moments of the centre (C86, C185), and on data with equal moments the mapping is the identity (C186). With shrinkage the covariance of the aligned sources is the shrunk target covariance and is shrunk once more by the second fit.
  Models: CoralRegModel, CovModel, MapModel, MongeModel; specification: CovSpec, MapSpec; theorems in ThmCoralAuto, ThmTwice.
  Status: partial. REFUTED for CORAL with shrinkage, the default: with white sources and correlated targets the second alignment changes rows again, for reg="auto" and for every number strictly between 0 and 1 (C198_coral_auto_refuted). Proved for CORAL with reg=None (empirical covariances), both centred modes, and for Monge with bias=True. The eigensolver and POT's barycentre are oracles with contracts: the barycentre is a covariance, is definite for definite inputs, and of equal Gaussians is that Gaussian.
  Theorems: `C198_coral_auto_refuted`, `C198_coral`, `C198_coral_centred`, `C198_monge`.
* **C199** selectors agree where they overlap. Unfold both selectors of SelectModel on the same input; masks that keep everything and index lists 0..n-1 are identities, and merging a step's own metadata again changes nothing.
  Models: SelectModel, UtilsModel; specification: SelectSpec, Spec, UtilsSpec; theorems in ThmAgree.
  Status: proved. Calls on the wrapped estimators are compared exactly: rows, labels and parameters. For SelectSourceTarget when fitting succeeds (it insists on both sides being present). For PerDomain under the condition that what reaches the estimator has one entry per sample; masked samples removed before the split are the misalignment of C16. SelectSource and SelectTarget without masking, as in SelectSourceTarget.
  Theorems: `C199_source_target`, `C199_one_domain`, `C199_one_side`.
* **C200** exchanging source and target inverts the alignment. CORAL, whatever the estimates: the product of the two maps is sqrt and inverse sqrt of the same matrices and cancels (ThmBack.there_and_back). Monge: the mapping between two Gaussians A = C^{-1/2}(C^{1/2} D C^{1/2})^{1/2} C^{-1/2} is the unique positive definite solution of A C A = D, so the reverse mapping is its inverse.
  Models: CoralRegModel, CovModel, MapModel, MongeModel; specification: CovSpec, MapSpec; theorems in ThmBack, ThmCoralReg.
  Status: proved. CORAL with every reg (C200_coral_reg); Monge with one source and one target domain, each fit with its own domain labels. The eigensolver and POT's barycentre are oracles with contracts: the barycentre is a covariance, and of a single Gaussian is that Gaussian.
  Theorems: `C200_coral_centred`, `C200_coral`, `C200_monge`, `C200_coral_reg`.
* **C201** a fraction of a data set is honoured in floating point. Rounding to nearest is monotone and leaves integers below 2^53 alone (Flocq), so int(n f) lies between the floors; the witness is computed by exhibiting the rounded mantissas.
  Models: FWModel, FloatModel; specification: FWSpec; theorems in ThmFloat.
  Status: partial. REFUTED as to the exact integer part: under_sampling=0.7 of 90 samples keeps 62, not 63, because 0.7 is rounded down. Everything else is proved: never more than n, n for 1, 0 for 0, monotone, and the count is the exact integer part of n times the stored fraction or one more when that product is within half a unit in the last place below an integer; target shift sizes can be drawn; the cut-off index of gradual adaptation exists. binary64 from Flocq, rounding to nearest even, no overflow.
  Theorems: `C201_never_too_many`, `C201_all_and_none`, `C201_monotone`, `C201_within_one`, `C201_exact_refuted`, `C201_target_shift`, `C201_cut_off`.
* **C202** the constrained optimiser and normalised weights survive rounding. Each rounding is monotone and keeps 0, 1, 2, which gives signs and ranges; relative errors (1+u)^k are accumulated by induction over iterations and over the tree of additions.
  Models: FWModel, FloatModel; specification: FWSpec; theorems in ThmFloat.
  Status: proved. Non-negativity and the range of the weights in binary64 with gradual underflow; the bounds on the constraint and the sum for any order preserving rounding with relative error u, in particular 53 bit precision without under- or overflow. C202_no_rounding: without rounding the program is the exact model of C08. Gradients are oracles.
  Theorems: `C202_nonnegative`, `C202_constraint`, `C202_million`, `C202_no_rounding`, `C202_weights_in_range`, `C202_weights_sum`, `C202_returns`.
* **C203** gradual interpolation in floating point reaches the target. Three applications of the relative error bound; powers of two scale exactly (Flocq mult_bpow_exact_FLX); the witness by exhibiting mantissas.
  Models: FWModel, FloatModel; specification: FWSpec; theorems in ThmFloat.
  Status: partial. REFUTED for the default of ten steps: the last intermediate sample for the target value 5/11 differs from it in the last place. Proved: the error is at most three roundings, and the last step is exact when the number of steps is a power of two.
  Theorems: `C203_accurate`, `C203_power_of_two`, `C203_last_step_refuted`.
* **C204** density weights are finite numbers in floating point. binary64 values extended with infinities and nan (FiniteModel), sums over any tree of additions. Upper bounds on each exponential and on the sum; a positive sum dominates each summand by monotonicity of rounding; at a fitted sample the source density is at least K(0)/n.
  Models: FetchModel, FiniteModel, FloatModel, OTModel, SelectModel, UnitModel; specification: FetchSpec, OTSpec, Spec; theorems in ThmFinite, ThmTight2.
  Status: partial. REFUTED for new samples: with a Gaussian kernel fitted on the source sample 0 and the target sample 100, the weights of the source samples 0 and 70 are 0 and nan (C204_new_sample_refuted). Proved: finite and at most 2n (at most 1 for the score) when no log-ratio exceeds 300 (C204_density, C204_scorer), which holds for every peaked kernel at the samples the source density was fitted on (C204_kde); and C204_overflow says exactly which weights become nan once a log-ratio passes 1024. exp and log are correctly rounded, the log density is the rounding of the exact value.
  Theorems: `C204_density`, `C204_scorer`, `C204_kde`, `C204_overflow`, `C204_new_sample_refuted`, `C204_signs`.
* **C205** soft neighbourhood density is a number for every temperature. Bounds through each step of softmax and entropy: scaled similarities at most 2^8, exponentials at least 2^-740, hence logs finite; for small temperatures the first row has an exponential that underflows to 0, and 0 * log 0 = nan absorbs the sum.
  Models: FiniteModel, FloatModel; specification: in the statements; theorems in ThmFinite.
  Status: partial. REFUTED for temperatures below 1/1120: two equal certain predictions at temperature 1/2000 score nan (C205_temperature_refuted), and C205_nan: always, for at least two samples and temperatures between 2^-800 and 1/1120. Proved for temperatures of at least 1/100 (C205_number; the default is 0.05) and up to 2^20 samples. exp and log are correctly rounded.
  Theorems: `C205_number`, `C205_nan`, `C205_temperature_refuted`.
* **C206** keeping all components is no more than centring and rotating. The rows are x P^T (P_s P_t^T) etc. with P square orthonormal, so P P^T = P^T P = I and the product is a rotation; distances are preserved by rotations.
  Models: MapModel, RotModel, SubModel; specification: MapSpec, SubSpec; theorems in ThmContracts, ThmRot.
  Status: proved. The principal component analysis is an oracle: its component rows are orthonormal and, by default, as many as the features. For transfer subspace learning the final QR factor is orthogonal (qr_contract). C206_alignment_contracts shows which model definitions give these rows. C206_contract_met shows that some analysis meets the contract.
  Theorems: `C206_contract_met`, `C206_alignment_contracts`, `C206_all_components`, `C206_default_is_all`, `C206_transfer_subspace`.
* **C207** with exact densities importance weighting turns source averages into target averages. Sum over sources of T(x)/S(x) f(x): exchange the sums over source and target samples, each target value is counted as often as it occurs among the sources; with f = 1 the mean of the weights is 1, so normalising does nothing.
  Models: FWModel, MetricsModel, ReweightModel, SelectModel, UtilsModel; specification: FWSpec, MetricsSpec, ReweightSpec, Spec, UtilsSpec; theorems in ThmUnbiased.
  Status: partial. REFUTED for DiscriminatorReweightAdapter: with the exact probability p of being a target its weights are proportional to (1-p)/p, the density ratio upside down, so they move the average away from the target (sources 1,1,1,2, targets 1,2,2,2: 29/28 where the targets have 7/4 and the unweighted sources 5/4). Proved for density and Gaussian weights and for the scorer; C207_histogram shows that the histogram is an exact estimate. Distributions are empirical ones.
  Theorems: `C207_density`, `C207_gaussian`, `C207_scorer`, `C207_histogram`, `C207_discriminator_refuted`.
* **C208** the regularisation of CORAL goes from matching covariances to matching the overall spread. The shrunk estimates at the ends are multiples of the identity or diagonal; roots of diagonal matrices are diagonal because positive semi-definite roots are unique.
  Models: CoralRegModel, CovModel, MapModel, MongeModel; specification: CovSpec, MapSpec; theorems in ThmCoralReg.
  Status: proved. Proved over the reals for every correct symmetric eigensolver (C86_eigensolver_exists: there is one for every number of features). The values between the ends are described by C155. The intensity of Ledoit-Wolf is an oracle.
  Theorems: `C208_zero`, `C208_one`, `C208_auto_full`, `C208_none`.
* **C209** every fold can be trained on and scored. The exact sizes of C28, C30 and C32 are positive on each side. For the stratified splitter the proportional allocation with largest remainders is a contract; the witness determines it completely.
  Models: SelectModel, SplitModel, UtilsModel; specification: FoldSpec, Spec, SplitSpec, UtilsSpec; theorems in ThmFolds.
  Status: partial. REFUTED for StratifiedDomainShuffleSplit: with one class, 2 targets, 18 sources and default sizes the request is accepted and no test part ever holds a target, whatever is drawn (C209_stratified_refuted). Proved for SourceTargetShuffleSplit, DomainShuffleSplit and LeaveOneDomainOut; for the stratified splitter, a (class, domain) group is represented in training when its share is at least one sample, and in the test part, for complementary sizes, when its share is more than one. scikit-learn's _approximate_mode is an oracle with the contract mode_of (FoldSpec), permutations are oracles.
  Theorems: `C209_shuffle_split`, `C209_domain_shuffle`, `C209_lodo`, `C209_stratified_train`, `C209_stratified_test`, `C209_stratified_refuted`.
* **C210** transporting labels keeps their average and the shares of the classes. Exchange the two sums over the plan; the spread by the decomposition of the squared distance around the barycentre.
  Models: MapModel, OTModel, SelectModel, UtilsModel; specification: OTSpec, Spec; theorems in ThmMass.
  Status: proved. Proved over the reals; the transport solver is an oracle whose plan has the two marginals (coupling). Choosing one class per target does not keep the shares, as C210_hard_labels_ex shows; this is not claimed.
  Theorems: `C210_label_propagation`, `C210_plain_mean`, `C210_class_shares`, `C210_jdot`.
* **C211** a trade-off set to one of its ends switches the other part off. At alpha=0 every iteration solves the same problem, so the second one sees no change; at alpha=1 the cost does not depend on the distances. A sub-sample with all of every domain is a permutation of all samples.
  Models: OTModel, SelectModel, SplitModel, UtilsModel; specification: OTSpec, Spec, SplitSpec, UtilsSpec; theorems in ThmTrade.
  Status: proved. Proved over the reals. The transport solver and the estimator are deterministic oracles; for the comparison with OTLabelProp the solver returns the same plan when all costs are divided by their mean. For alpha=1 the mean distance is not zero (the code divides by it).
  Theorems: `C211_jdot_features_only`, `C211_jdot_is_label_propagation`, `C211_jdot_labels_only`, `C211_jdot_class_labels_only`, `C211_jdot_class_features_only`, `C211_no_under_sampling`.
* **C212** a refit that fails leaves the fitted estimator usable. On the model of the attributes (HistModel): a check that everything visible is written by one statement followed by storing lines only; for the other classes a computation that marks values with the data they come from shows the mixture.
  Models: HistModel; specification: in the statements; theorems in ThmFail.
  Status: partial. REFUTED for 16 of the 32 classes, each with a line that can raise after something was stored: the OT adapters replace the fitted transport before fitting the new one, CORAL and the Gaussian adapter store the new means before the covariance is estimated (which refuses, for example, an invalid reg), subspace alignment stores the new source components before fitting the target's, TCA, TJM, MMDTarS and MMDLSConS store the new data first, DASVM and the gradual estimator fit their parameter in place, KLIEP stores the bandwidth first. Proved for the other 16, which compute everything before storing it. What a line computes is arbitrary; the lines that only store a computed value are assumed not to raise (storing). Interruptions between two such lines are not considered.
  Theorems: `C212_careful`, `C212_careless_refuted`.
* **C213** no model is ranked above one that is certain and right. On the model of the scorers: bounds for all models with equality for certain ones (the entropy entries are non-negative, t^p <= t, shares of right predictions), the entropy of a softmax for the neighbourhood density, and witnesses for the scorers that fail.
  Models: MetricsModel, ReweightModel, SelectModel, UtilsModel; specification: FWSpec, MetricsSpec, ReweightSpec, Spec, UtilsSpec; theorems in ThmRank.
  Status: partial. Proved for SupervisedScorer and ImportanceWeightedScorer with the (weighted) accuracy, for PredictionEntropyScorer with exact log-probabilities, for MaNo with p >= 1, and for CircularValidation when the copy trained backwards returns the source labels. REFUTED for SoftNeighborhoodDensity: a model that gives all n targets the same probabilities gets at least ln(n-1), no model can get more than ln n, and with the default temperature the right model on two classes of two targets is ranked below it. REFUTED for MixVal: a constant answer always gets the best value 1, the right model on classes that are not convex gets less. REFUTED for DEV: the control variate makes the risk of a model that is wrong everywhere negative, below the zero of the right one. REFUTED for MaNo with the accepted values p < 1, which rank ignorance above certainty.
  Theorems: `C213_entropy`, `C213_mano`, `C213_mano_small_p_refuted`, `C213_supervised`, `C213_importance`, `C213_circular`, `C213_snd_constant`, `C213_snd_refuted`, `C213_dev_refuted`, `C213_mixval_constant`, `C213_mixval_refuted`.
* **C214** a larger budget or more freedom never gives a worse result. Inductions that compare two runs of the same loop with different bounds and tolerances (the shorter one is a prefix of the longer one), monotonicity of the sets of allowed weights and candidates, and a run of Frank-Wolfe that leaves the optimum.
  Models: CallModel, FWModel, LossModel, MapModel, OTModel, ReweightModel, SelectModel, UtilsModel; specification: CallSpec, FWSpec, LossSpec, OTSpec, ReweightSpec, Spec, UtilsSpec; theorems in ThmBudget.
  Status: partial. Proved for SphericalKMeans (max_iter, tol and the initialisations, together and separately), for KLIEP's list of bandwidths, for KMM with an exact solver (B and eps) and for JDOT (n_iter_max and tol; the longer run starts as the shorter one). REFUTED for KMM with solver='frank-wolfe' and max_iter: the step lengths are fixed and the last iterate is returned, so three iterations can be optimal and the fourth one worse (only the guaranteed bound of C78 improves).
  Theorems: `C214_kmeans_iterations`, `C214_kmeans_restarts`, `C214_kmeans`, `C214_bandwidths`, `C214_kmm`, `C214_frank_wolfe_refuted`, `C214_jdot_regression`, `C214_jdot_classification`.
* **C215** every value of a label can be used. On the models of the selectors, of check_X_y_domain and of CircularValidation: the exact training set for every label vector by induction over the samples, hence the loss of the samples of class -1 on every data set; the exact expression of the circular score for both kinds of labels.
  Models: MetricsModel, SelectModel, UtilsModel; specification: MetricsSpec, SelectSpec, Spec, UtilsSpec; theorems in ThmReserved.
  Status: partial. Proved: with numbers as labels every source with a finite label is trained on, -1 included, and CircularValidation passes real-valued predictions on unchanged; with classes the training set is exactly the sources whose class is not -1. REFUTED for a class called -1 (the usual -1/+1 convention): its source samples are always dropped without a message, and without sample_domain they are declared targets. REFUTED for regression with whole-number source labels in CircularValidation: the backward copy is trained on the ranks of the predictions and any non-integer prediction of it raises ValueError.
  Theorems: `C215_classes`, `C215_class_minus_one_refuted`, `C215_auto_domain_refuted`, `C215_numbers`, `C215_circular_numbers`, `C215_circular_whole_numbers_refuted`.
* **C216** the unit and the origin of a regression target do not matter. On the models of OTLabelPropAdapter and solve_jdot_regression: the transported labels commute with affine maps since the plan has the right column sums; induction over the iterations of JDOT with the invariant that plan and predictions correspond; for the refutation the optimal 2 by 3 plans are computed from the order of the relative costs, for every exact solver.
  Models: MapModel, OTModel, SelectModel, UnitModel, UtilsModel; specification: OTSpec, Spec; theorems in ThmUnit.
  Status: partial. Proved: propagated numbers follow every affine change of the labels; a JDOT run follows every change of the origin, and a change of unit by c if alpha is changed to the equivalent trade-off (the two runs then have the same plans and proportional losses and differ only in when they stop). REFUTED with the default alpha = 1/2: with two sources and three targets, labels 0 and 1 give the predictions 1, 1/2, 0, and the same labels in a unit twice as large give 3/8, 1/4, 1/8 instead of 1/2, 1/4, 0, for every exact solver, tolerance and number of iterations from two on. REFUTED for label propagation when the change makes all labels whole numbers: 0.5 and 1 are averaged, the same lengths written 1 and 2 are classes and the target gets 1.
  Theorems: `C216_label_propagation`, `C216_jdot`, `C216_origin`, `C216_unit_refuted`, `C216_whole_numbers_refuted`.
* **C217** a sample of weight zero counts as absent. On the models of OTLabelPropAdapter, solve_jdot_regression and get_loss: sources without mass have empty rows in every plan, so masses per class, transported labels and weighted sums do not see them; an exact solver for one more source without mass is one for the others, which gives the plans of the JDOT witness.
  Models: DeepModel, MapModel, OTModel, SelectModel, UtilsModel; specification: OTSpec, Spec; theorems in ThmAbsent.
  Status: partial. Proved: leaving out sources of weight zero changes no label that label propagation gives to a target, for classes and for numbers. The loss of a deep batch is multiplied by the ratio of the numbers of source samples. REFUTED for JDOT: a third source of weight zero far from the targets changes the mean distance by which the distances are divided, and the predictions change from 3/8, 1/4, 1/8 to 1/2, 1/4, 0. REFUTED for deep models: losses 3 and 5 give 4, and 8/3 with a third sample of weight zero.
  Theorems: `C217_propagation`, `C217_jdot_refuted`, `C217_deep`, `C217_deep_refuted`.
* **C218** Monge alignment moves the samples no farther than needed. On the numerical model of the alignment: the map is symmetric with a non-negative symmetric inverse, completing the square in the inverse gives the excess of any competitor with the same second moments; equality forces the difference into the kernel of the inverse, which is zero.
  Models: CoralRegModel, MapModel, MongeModel; specification: CovSpec, MapSpec; theorems in ThmLeast.
  Status: proved. Proved, with the exact excess: another arrangement is farther by the sum of the quadratic forms of the inverse map at the differences, so the aligned rows are also the only closest ones. For comparison CORAL: least when the features are uncorrelated in both domains (C218_coral_uncorrelated), in general not: C218_coral_longer gives four sources and four targets for which rows with the same covariance lie strictly closer.
  Theorems: `C218_monge`, `C218_monge_linear`, `C218_coral_uncorrelated`, `C218_coral_longer`.
* **C219** linear alignment undoes a stretch of the target. On the numerical models of the two adapters: the map between Gaussians is the only symmetric non-negative matrix turning one covariance into the other (uniqueness of square roots), so it is the inverse of the stretch; for CORAL the product of the two roots is the stretch exactly if the root of the source covariance commutes with it, and what commutes with a matrix commutes with its root (shown in the eigenbasis).
  Models: CoralRegModel, MapModel, MongeModel; specification: CovSpec, MapSpec; theorems in ThmUndo.
  Status: partial. Proved for Monge alignment. For CORAL an equivalence: a row and its copy are adapted to the same point for all rows if and only if the stretch commutes with the covariance of the sources (C219_coral), hence always when all features are stretched alike and shifted in any way (C219_coral_alike). REFUTED for CORAL in general: sources with covariance [[5, 3], [3, 2]] and the first feature doubled in the target, for every shift and eigensolver.
  Theorems: `C219_monge`, `C219_coral`, `C219_coral_alike`, `C219_coral_refuted`.
* **C220** a constant feature changes nothing. The distance of two rows does not change when a constant is appended, so kernels of a given bandwidth agree and the theorems behind C174, which hold for any change of representation that keeps the kernel, apply; for the default bandwidth the weight of a new row is computed from the constraints of the problem alone.
  Models: FWModel, MapModel, OTModel, Rew2Model, ReweightModel, SelectModel, UtilsModel; specification: FWSpec, ReweightSpec, Spec, UtilsSpec; theorems in ThmConst.
  Status: partial. Proved for every bandwidth given as a number. REFUTED for KMM's default gamma=None, which is one over the number of features: fitted on the source 0, the source row 1 gets the weight exp(-1), and exp(-1/2) after a constant feature has been added, for every number of iterations (C220_default_bandwidth_refuted).
  Theorems: `C220_weights`, `C220_features`, `C220_labels`, `C220_default_bandwidth_refuted`.
* **C221** whole numbers may be stored as integers or as floats. Every assignment into an array casts to the dtype of that array; a cast changes nothing when the array is of floats or the numbers are whole, and each function is shown to be in one of these cases on every branch, including the branches that fill a missing half with mask labels.
  Models: DataModel, MapModel, MetricsModel, SelectModel, UtilsModel; specification: DataSpec; theorems in ThmInt.
  Status: partial. Proved for splitting and merging of two arrays of whole numbers, optimal-transport mapping, CORAL, subspace alignment, transfer subspace learning, MMDLSConS, circular validation, and packing without hidden labels or with a given mask. REFUTED for multi-domain Monge alignment (3 stored as an integer and mapped to 3/2 comes out as 1), for merging integer sources with fractional targets (the fractions are cut off) and for packing with hidden target labels (classes stored as floats are masked with NaN and the packed labels count as a regression target).
  Theorems: `C221_merge`, `C221_ot_mapping`, `C221_coral`, `C221_subspace`, `C221_mmdls`, `C221_circular`, `C221_pack`, `C221_pack_masked_refuted`, `C221_monge_refuted`, `C221_mixed_merge_refuted`.
* **C222** domain labels can be written in any of the documented ways. A model of the checks before the conversion to int32, with Python lists and arrays as different arguments; on labels that fit, each function is shown equal to the one used in the other theorems, so those apply.
  Models: DeepModel, DomArgModel, UtilsModel; specification: Spec; theorems in ThmDomArg, ThmTight8.
  Status: partial. Proved for arrays of integers or floats whose labels fit in 32 bits, and for a single number. REFUTED for lists and tuples: every list the checks accept as an array raises TypeError (they index it with an array), and merging raises AttributeError. REFUTED for labels beyond 32 bits: every source domain numbered from 2^31 to 2^32 - 1 is taken for a target, and two domains whose numbers differ by 2^32 become one.
  Theorems: `C222_arrays`, `C222_scalar`, `C222_list_refuted`, `C222_large_role_refuted`, `C222_large_merged_refuted`, `C222_merge`.
* **C223** a pipeline built in stages is the pipeline built at once. The outer call unwraps the nested pipeline; induction on the three sequences shows that unwrapping and wrapping again gives the steps of the single call; counterexamples computed in the model.
  Models: PipeModel; specification: PipeSpec; theorems in ThmStages.
  Status: partial. Proved for any number of plain estimators before, inside and after the nested pipeline and both default selectors when no step up to the end of the nested pipeline predicts target labels (step names: when no class occurs both inside and outside). REFUTED when a label-predicting step is inside the nested pipeline (the estimators after it are told to hide the predicted labels again) or before it (the nested estimators hide them), and for the names of classes that occur inside and outside.
  Theorems: `C223_same_steps`, `C223_same_names`, `C223_predicted_labels_refuted`, `C223_nested_masking_refuted`, `C223_names_refuted`.
* **C224** equal sample weights are no sample weights. The marginals computed from equal weights are the uniform ones; the rest of both branches is the same. The deep loss is computed for any batch.
  Models: DeepModel, OTModel, SelectModel, UtilsModel; specification: Spec; theorems in ThmEqual.
  Status: partial. Proved for label propagation, JDOTClassifier and JDOTRegressor (whose base estimator receives the target weights and must itself treat equal weights as none), and for deep models when the common weight is 1. REFUTED for deep models: a common weight of 2 doubles the base loss and not the adaptation loss, and with a criterion that returns one number weights of 1 are an error.
  Theorems: `C224_propagation`, `C224_jdot`, `C224_deep`, `C224_deep_ones`, `C224_deep_refuted`.
* **C225** turning a knob one way acts one way. Entropy of a softmax is monotone in the temperature (Gibbs' inequality from ln x <= x - 1), power means are monotone in the power (Bernoulli's inequality), and the two selections are upper sets of the weights.
  Models: MetricsModel, OTModel, SelectModel, SelfModel, UtilsModel; specification: MetricsSpec, OTSpec, SelfSpec, Spec, UtilsSpec; theorems in ThmKnob.
  Status: proved. Proved over the reals: the temperature by Gibbs' inequality, the power by the power mean inequality (for rows that are probabilities, so for deep models when the normalisation is defined, C51), the threshold as a selection from the training set of the lower threshold, alpha for two fits that both succeed (ties can make a fit fail, C59).
  Theorems: `C225_temperature`, `C225_power`, `C225_threshold`, `C225_alpha`, `C225_mano`.
* **C226** a fitted adapter treats close samples alike. The Gaussian is Lipschitz with constant 2 sqrt(gamma) (from exp x >= 1 + x and the triangle inequality), combinations add up, affine maps by Cauchy-Schwarz; nearest-neighbour weights by a witness family indexed by the distance.
  Models: MapModel, MongeModel, ReweightModel, SelectModel, UtilsModel; specification: MapSpec, ReweightSpec, Spec, UtilsSpec; theorems in ThmClose.
  Status: partial. REFUTED for the nearest-neighbour weights: two sources arbitrarily close together, one takes all the targets and the other none (C226_nearest_refuted). Proved with explicit constants for KLIEP and KMM (new samples, or smooth_weights) and the two kernel maps, 2 sqrt(gamma) times the sum of the absolute coefficients, and for CORAL and Monge alignment, the Frobenius norm of the linear part.
  Theorems: `C226_kliep`, `C226_kmm`, `C226_kernel_maps`, `C226_coral`, `C226_monge`, `C226_nearest_refuted`.
* **C227** training a deep net uses the samples it is given. A model of the training loop around the samplers of C60 and C61 with the training step as an oracle; counting of the samples that occur in no batch; the binding of the keyword is_fit to the signature of the split.
  Models: DeepModel, HoldModel; specification: DeepSpec, Spec; theorems in ThmHold.
  Status: partial. REFUTED: with the default train_split of skorch, and with every skorch ValidSplit, fit raises TypeError, because is_fit=True is passed on to the split (C227_default_split_refuted, C227_valid_split_refuted); the net must be built with train_split=None or a split that accepts all keywords. Proved: the exact number of samples left out by an epoch of each loader, that training steps on these batches only, and that a predefined validation set does not influence the parameters.
  Theorems: `C227_left_out`, `C227_default_epoch`, `C227_one_side`, `C227_trains_on_all`, `C227_validation_apart`, `C227_default_split_refuted`, `C227_valid_split_refuted`.
* **C228** an estimated risk follows the loss. The control-variate estimate is linear in the weighted loss and in the weights, and exact on the weights themselves; the importance weighted score is an average with weights independent of the loss. Counterexamples by computation.
  Models: MetricsModel, ReweightModel, SelectModel, UtilsModel; specification: FWSpec, MetricsSpec, ReweightSpec, Spec, UtilsSpec; theorems in ThmRisk.
  Status: partial. Proved for ImportanceWeightedScorer with any score that is a weighted average over samples, and, except for monotonicity, for DeepEmbeddedValidation with losses of one column and weights that are not all equal. REFUTED for DeepEmbeddedValidation: with the default loss a model whose loss is 2 on every sample gets risk 0 (C228_dev_default_refuted, from the broadcasting of C48); when all weights are equal, a loss of 1 gets risk 2 (C228_dev_equal_weights_refuted, eta is set to 0); the control variate can turn a larger loss into a smaller, even negative, risk (C228_dev_larger_refuted).
  Theorems: `C228_dev_column`, `C228_dev_equal_weights_refuted`, `C228_dev_default_refuted`, `C228_dev_larger_refuted`, `C228_importance`.
* **C229** a parameter is read and set by its path. Objects are trees of named members, selectors are transparent nodes; reading and setting follow the code, the specification is an inductive relation between an object, a path and a value. Induction on the path.
  Models: NestModel; specification: in the statements; theorems in ThmNest.
  Status: partial. Proved for every path that does not end with base_estimator at a selector. REFUTED there (C229_base_estimator_refuted): when the estimator has a parameter base_estimator of its own (JDOTRegressor, JDOTClassifier, DASVMClassifier, GradualEstimator), step__base_estimator reads the estimator itself, setting it replaces the whole estimator, and None is not set at all. One key per set_params call; SelectSourceTarget is left out (it has no parameters, C120).
  Theorems: `C229_read`, `C229_set`, `C229_unknown`, `C229_base_estimator_refuted`.
* **C230** the deep discrepancies do not depend on the frame of the features. Covariances are bilinear, the Frobenius norm is invariant under orthogonal matrices, Euclidean distances under motions (C174); the losses are functions of these. Counterexample with a turn of cosine 4/5.
  Models: LossModel, MapModel; specification: LossSpec; theorems in ThmFrame.
  Status: partial. DeepCORAL (each batch may even be shifted on its own), DAN with given or default bandwidths and DeepJDOT are proved. REFUTED for the contrastive discrepancy (C230_cdd_refuted): the confident target samples are selected feature by feature (C105), so that turning features and centroids together changes which samples are used; when the same samples are selected the loss is invariant (C230_cdd). The default bandwidths of DAN contain eps, the exact change of unit is stated for given bandwidths.
  Theorems: `C230_coral`, `C230_dan`, `C230_jdot`, `C230_cdd`, `C230_cdd_refuted`, `C230_coral_units`, `C230_dan_units`.
* **C231** a target domain of a single sample is adapted to. A coupling with one column is the vector of the source weights, so that averages and class masses are those of C210; invariant of the JDOT loop; the estimated covariance of one sample is 0 for every shrinkage, and so is its square root; entropy bounds of C47.
  Models: CoralRegModel, CovModel, MapModel, MetricsModel, OTModel, ReweightModel, SelectModel, SingleModel, UtilsModel; specification: MapSpec, MetricsSpec, OTSpec, Spec; theorems in ThmSingle, ThmSingle2.
  Status: partial. REFUTED for GaussianReweight (C231_gaussian_refuted): with every reg the covariance of a single sample is estimated by 0; fit accepts it and the weights are refused by scipy, with an error about a singular matrix. The rest is proved. The plans are couplings of the weights (contract of the transport solver), the eigensolver is correct, the covariance of the sources positive definite; scipy's density refuses covariances that are not positive definite.
  Theorems: `C231_label_regression`, `C231_label_class`, `C231_jdot_regression`, `C231_jdot_classification`, `C231_coral`, `C231_gaussian_refuted`, `C231_density`.
* **C232** source labels of a single class are enough. The heaviest class is a source class (C52); with one class the label plan is the vector of column masses, constant for uniform target weights, and nothing is below the threshold; invariant of the JDOT loop; class weights and sum constraint of C81; C105 for the error.
  Models: FWModel, MapModel, OTModel, ReweightModel, SelectModel, UtilsModel; specification: FWSpec, OTSpec, ReweightSpec, Spec, UtilsSpec; theorems in ThmOneClass, ThmOneClass2.
  Status: partial. REFUTED for CAN (C232_can_refuted): with one class and therefore one cluster the contrastive discrepancy divides the number 0 by 0, for all batches. The rest is proved; plans are couplings, the solution of MMDTarS meets its constraints. Whether the classifier given to JDOT can be fitted on one class is its own affair: the theorem is about every result.
  Theorems: `C232_label_propagation`, `C232_jdot`, `C232_can_refuted`, `C232_tars`.
* **C233** no method invents a class. Invariants: every label list on which the classifier is fitted contains only source labels, through the DASVM loop, the gradual steps and the JDOT loop (the fitting data is selected from copies of the source classes); C52 for label propagation; witness of C53 for JCPOT.
  Models: MapModel, OTModel, SelectModel, SelfModel, UtilsModel; specification: OTSpec, SelfSpec, Spec; theorems in ThmClasses, ThmClasses2.
  Status: partial. REFUTED for JCPOT (C233_jcpot_refuted): it returns column numbers, so with source classes 5 and 7 the target labels are 0 and 1. Proved for the other methods. Contract: the classifier predicts a label it was fitted on.
  Theorems: `C233_dasvm`, `C233_gradual`, `C233_jdot`, `C233_label_propagation`, `C233_jcpot_refuted`.
* **C234** parameters set in one call are all set, in any order. Assignment of the direct names, then one recursive call per further name: specification of both loops by what is found under each name, induction on the length of the longest path; computation for the replacement.
  Models: ManyModel, NestModel; specification: in the statements; theorems in ThmMany.
  Status: proved. Model of scikit-learn's grouping of the arguments by their first name and of the selector's own base_estimator argument. Paths that name base_estimator of a selector are those of C229; here they occur as the replacement only.
  Theorems: `C234_together`, `C234_one`, `C234_replaced`.
* **C235** an iteration limit cuts a run short and does nothing else. Two runs of the same loop side by side, by induction on the smaller limit; for KLIEP, an iteration that changes nothing is a fixed point.
  Models: OTModel; specification: in the statements; theorems in ThmLimit.
  Status: proved. Proved. Random restarts of k-means and the choice of the KLIEP centres are inputs. Gradual adaptation is not a case of this: its number of steps divides the way and is no limit.
  Theorems: `C235_jdot_regression`, `C235_jdot_classification`, `C235_tjm`, `C235_kmeans`, `C235_kliep`.
* **C236** splitters, samplers and data loaders deliver as many items as they announce. Induction on the loops that yield; the batches of a list are as many as its length divided by their size, rounded up.
  Models: DeepModel, NumberModel, SplitModel, UtilsModel; specification: Spec, SplitSpec, UtilsSpec; theorems in ThmNumber.
  Status: proved. Proved for every run that raises nothing. The length of a data loader is torch's rule, the length of the sampler divided by the batch size and rounded up. LeaveOneDomainOut is asked with the domain labels of the data; without them it raises.
  Theorems: `C236_splits`, `C236_leave_one_out`, `C236_balanced_sampler`, `C236_one_side_sampler`, `C236_balanced_loader`, `C236_one_side_loader`.
* **C237** merges and selections of deep data sets can be done in any order. A data set whose tensors belong together is determined by samples, labels, domains and weights; both sides of each equation are computed from C62.
  Models: DeepModel; specification: DeepSpec, Spec; theorems in ThmAlgebra.
  Status: proved. Proved, for merges that return a new data set (the default) of tensors that belong together, as every constructor gives them (C62). Merges in place leave stale sample numbers, see C98.
  Theorems: `C237_merge_associative`, `C237_select_of_merge`, `C237_selections_commute`, `C237_selection_inside`, `C237_selections_disjoint`.
* **C238** optimal transport moves the sources among the targets. The shares of the targets in a moved source are non-negative and add up to one, the shares of a target over all sources to the ratio of the numbers; Jensen's inequality for the spread.
  Models: MapModel, OTModel, SelectModel, UtilsModel; specification: MapSpec, OTSpec, Spec, UtilsSpec; theorems in ThmHull.
  Status: proved. Proved. That POT moves a training sample to the barycentre of the targets under its plan is the contract of the transport; an iterative solver meets the marginals only up to its tolerance.
  Theorems: `C238_moved_among_targets`.
* **C239** target scores do not depend on the sources. Both evaluations read the same target part; the rest of each scorer is a function of it and of the answers of the model on it.
  Models: MetricsModel, SelectModel, UtilsModel; specification: Spec, UtilsSpec; theorems in ThmTargetOnly.
  Status: proved. Proved. MixVal draws its permutation from the seed; the two evaluations are compared with the same draw, which has the same length because the targets are the same.
  Theorems: `C239_supervised`, `C239_entropy`, `C239_soft_neighbourhood`, `C239_mixval`, `C239_mano`.
* **C240** with PerDomain what happens in one domain stays there. The calls of C15 and C16 are read off for one domain; the hidden labels of a domain are its own labels or the mask.
  Models: SelectModel, UtilsModel; specification: SelectSpec, Spec, UtilsSpec; theorems in ThmIsolated.
  Status: proved. Proved. Hidden labels of plain predictors are not included: there fit fails (C16).
  Theorems: `C240_fit`, `C240_masked`, `C240_apply`.
* **C241** the two solvers of qp_solve agree. The middle of a point and the minimiser is feasible, which bounds their distance by the gap of the values; the gap vanishes (C78) and scipy is given the same feasible set (C79).
  Models: FWModel; specification: FWSpec; theorems in ThmSolvers.
  Status: proved. Proved in real arithmetic. That scipy's minimiser is exact when it returns is its contract. Upper bounds on single variables are not included: frank-wolfe ignores them (C10).
  Theorems: `C241_close`, `C241_unique`, `C241_equality`, `C241_two_sided`.
* **C242** the iterative methods end by themselves. k-means: the pair (inertia of the labels with their own centres, sum of the labels) decreases lexicographically, so no labelling repeats and counting them bounds the run. JDOT: a run that goes on gains at least tol per iteration (C178) from a loss that does not depend on the limit (C235).
  Models: CallModel, LossModel, OTModel; specification: CallSpec, LossSpec, OTSpec; theorems in ThmHalt.
  Status: proved. Proved in real arithmetic. For JDOT the estimator is an exact minimiser over a set of functions and the transport solver is exact (the contracts of C178). The case in which a solver or estimator raises is included: the exception is the same for all limits from some limit on.
  Theorems: `C242_kmeans_iterations`, `C242_kmeans_ends`, `C242_jdot_regression`, `C242_jdot_classification`, `C242_jdot_threshold`.
* **C243** adapting does not move the domains apart. KMM: equal weights are feasible, so the minimiser is no worse (C177). Subspace alignment: the projection is nearest in its span. CORAL: after shrinkage the whitened and recoloured covariance is T + s/(1-s) times a difference whose Frobenius norm is controlled through conjugation by the roots. OT: the plan stays a plan, and each barycentre minimises its part of the cost.
  Models: CoralRegModel, CovModel, FWModel, MapModel, OTModel, ReweightModel, SelectModel, UtilsModel; specification: CovSpec, FWSpec, MapSpec, OTSpec, ReweightSpec, Spec, UtilsSpec; theorems in ThmApart, ThmApart2, ThmApart3.
  Status: partial. REFUTED for KMM with solver='frank-wolfe' and few iterations (source 1, target 2/3, two iterations: distance 4/9 instead of 1/9; proved up to 16 kappa (1+e)^2/(max_iter+2)) and for CORAL with reg=1, which only matches the overall spread (witness with four samples). Proved for KMM with solver='scipy', subspace alignment, the OT mapping (transport cost between the domains), CORAL without shrinkage (distance 0), and CORAL with 0 < reg < 1 when the overall spreads agree.
  Theorems: `C243_kmm`, `C243_kmm_frank_wolfe`, `C243_frank_wolfe_refuted`, `C243_subspace_alignment`, `C243_coral`, `C243_coral_refuted`, `C243_coral_shrunk`, `C243_transport`.
* **C244** groups of unrelated features are aligned separately. Changing the signs of one group commutes with the covariance, so by uniqueness of the non-negative root it commutes with the root and its inverse, whose entries between groups are therefore zero. Restricting the root to a group gives a root of the restriction.
  Models: CoralRegModel, CovModel, MapModel, MongeModel; specification: CovSpec, MapSpec; theorems in ThmGroups.
  Status: proved. Proved in real arithmetic. Monge alignment: the external barycentre solver is assumed to keep uncorrelated groups uncorrelated, as the barycentre does.
  Theorems: `C244_coral`, `C244_coral_shrunk`, `C244_coral_any`, `C244_coral_uncorrelated`, `C244_monge`, `C244_coral_alone`.
* **C245** adapting does not reverse the direction between two samples. OT: exchanging the destinations of two pairs gives another plan, so an optimal one is monotone on its support, and averaging over the support gives the barycentres. Monge: the matrix is positive semidefinite. CORAL: C244 with one feature.
  Models: CovModel, MapModel, MongeModel, OTModel, SelectModel, UtilsModel; specification: CovSpec, MapSpec, OTSpec, Spec, UtilsSpec; theorems in ThmKeepOrder.
  Status: partial. REFUTED for CORAL with two or more features (witness with four sources and four targets: (0, 0) and (-1, 4) are moved into opposite directions), because the product of the two roots is not symmetric. Proved for the OT mapping, Monge alignment and CORAL with one feature.
  Theorems: `C245_transport`, `C245_transport_order`, `C245_monge`, `C245_coral_order`, `C245_coral_refuted`.
* **C246** gradual adaptation moves samples in equal steps and without meeting. Equal steps: from the pairs kept by fit. Distances: the largest entry of a row or column of a plan is positive, an optimal plan is monotone on its support (lemma exchange of C245), and the squared distance after t steps is a sum of three terms that are not negative. Refutation: the mask is computed for every two by two plan.
  Models: MapModel, OTModel, SelectModel, SelfModel, UtilsModel; specification: MapSpec, OTSpec, SelfSpec, Spec, UtilsSpec; theorems in ThmPath.
  Status: partial. REFUTED with the default plan sampling: with two sources and two targets alpha = 1 keeps all four pairs, also those the plan does not use, and two samples are at the same place after five of ten steps. Equal steps are proved for both samplings, the distances for the advanced one.
  Theorems: `C246_equal_steps`, `C246_do_not_meet`, `C246_default_refuted`.
* **C247** with one feature optimal transport matches quantiles. An optimal plan is monotone on its support (lemma exchange of C245). So the mass of the sources below a source, with the mass of the pair itself, goes to targets up to its target, and the other way round; counting these masses gives the two inequalities, and for equal numbers without ties equal ranks.
  Models: MapModel, OTModel, SelectModel, UtilsModel; specification: MapSpec, OTSpec, Spec, UtilsSpec; theorems in ThmQuantile, ThmQuantile2.
  Status: proved. Both forms proved: shares of the samples below and up to a value for any numbers of samples, equal ranks for equal numbers.
  Theorems: `C247_quantiles`, `C247_sorted`, `C247_labels`, `C247_numbers`.

## Assumptions per theorem

Output of `Print Assumptions` for each of the 1154 theorems, grouped by the axioms listed.

* Closed under the global context (486 theorems):
  C01_split_exact, C01_split_partition, C01_split_aligned, C01_split_errors, C02_split_merge_roundtrip, C03_merge_places_rows_partial, C03_merge_values_unchanged_partial, C03_merge_values_unchanged_refuted, C03_merge_miscount_rejected, C03_merge_bad_call_rejected, C04_column_masked, C04_columns_refused, C04_missing_target_masked, C04_missing_source_masked, C05_check_X_domain_accepts_partial, C05_check_X_domain_only_ValueError, C05_check_X_domain_documented_partial, C05_allow_multi_target_refuted, C05_check_X_y_domain_accepts_partial, C05_check_X_y_domain_length_refuted, C06_auto_domain_discrete, C06_auto_domain_continuous, C06_auto_domain_rejects, C06_defaults_without_labels, C07_domains_indices_exact, C07_positions_increasing_and_exact, C07_split_source_target, C07_per_domain_split_exact, C11_fit_drops_masked_discrete, C11_fit_drops_masked_continuous, C11_fit_keeps_all_otherwise, C11_python_list_rejected, C12_outputs_land_on_their_rows, C12_uncovered_rows_zero, C12_container_outputs_land, C12_mixed_dtype_refuted, C13_shared_no_target_label_leak, C13_per_domain_no_target_label_leak, C13_masked_call, C13_label_kind_premise_needed, C14_fit_overwrites_caller_labels_refuted, C14_caller_labels_after_fit_partial, C14_caller_labels_unchanged_partial, C15_per_domain_fit_calls, C15_per_domain_routes_rows, C15_unseen_label_rejected, C16_domain_aware_estimators, C16_per_domain_masked_fit_always_fails_refuted, C17_select_side_rows, C17_select_side_plain, C17_select_target_refuses_masking, C18_fit_each_side, C18_fit_each_side_plain, C18_fit_needs_both_sides, C18_predict_each_side, C18_in_pipeline, C19_metadata_override, C20_step_names, C20_unnamed_steps_distinct, C20_user_name_collision_refuted, C21_empty_call, C21_flat_and_only_last_final, C21_stale_final_flag_refuted, C21_bad_selector_rejected, C22_masking_stops_at_label_predictor_partial, C22_prewrapped_predictor_refuted, C23_pack_layout, C23_pack_unknown_name, C23_pack_nothing, C24_target_labels_masked_partial, C24_unmasked_labels_unchanged, C24_other_dtypes_unmasked_refuted, C24_pack_train, C24_pack_test, C25_domains_retrievable_partial, C25_distinct_history, C25_duplicate_name_refused, C25_generated_name_overwrites_refuted, C25_merge_unlabelled_refuted, C25_constructor, C25_constructor_bad_tuple_refuted, C26_pack_then_select, C26_pack_then_per_domain_split, C27_select_domain_exact, C27_select_domain_known, C27_unknown_name, C28_shuffle_split_exact, C28_shuffle_split_succeeds, C29_sizes_exact, C29_test_part_nonempty, C29_impossible_rejected, C30_leave_one_domain_out, C30_number_of_splits, C30_zero_domain_raises, C31_stratified_groups_exact, C31_stratified_succeeds, C31_stratified_rejects, C32_domain_shuffle_split, C32_fraction_range, C33_seeded_rows, C33_subsample_aligned, C33_keep_all_unchanged, C33_plain_indices_distinct, C33_stratified_indices_distinct, C34_discriminator_labels, C34_fit_transform, C40_ot_transform, C40_ot_fit_transform, C40_sources_rejected, C41_subspace_alignment, C41_transfer_subspace, C42_no_iteration, C43_transform, C43_unseen_domain, C43_fit, C43_integer_input_refuted, C48_parts, C49_roles_swapped, C49_source_labels_unused, C49_source_zero_refuted, C54_no_iteration, C55_triples, C55_empty_raises, C60_epoch, C60_batches, C60_small_sides_give_no_batch, C60_one_side, C61_batches, C61_unknown_side, C62_constructor, C62_constructor_accepts, C62_select_source, C62_select_target, C62_select_domain, C62_select_with_labels, C62_select_condition, C62_numbers_kept, C62_partition, C62_per_domain_split, C62_merge, C62_merge_mixed_weights, C62_items, C62_weights, C62_copy, C62_dict, C69_first_fit, C73_any_selectors_partial, C73_chain_no_target_label_leak_partial, C73_select_target_then_masked_refuted, C74_clone_default_masking_partial, C74_source_target_clone_fails_refuted, C74_clone_reenables_masking_refuted, C74_clone_loses_final_refuted, C75_nesting_changes_inner_refuted, C75_nesting_frame_partial, C76_bunch_names_partial, C76_both_ways_refuted, C77_pack_lodo, C77_default_ignores_return_type_refuted, C86_row_order, C86_assume_centered, C87_training_sources, C87_known_classes, C87_nearest, C87_unseen_class, C87_fit, C90_jdot_inputs, C90_ignores_target_labels, C98_loop_misses_added_refuted, C98_new_dataset, C98_in_place, C99_defaults, C99_int_domain_refuted, C100_target_rows, C100_all_rows, C100_arrays, C102_allow_source, C105_needs_kmeans, C106_single_target, C106_shared_slot_refuted, C117_exposed, C117_source_target_partial, C117_source_target_predict_refuted, C118_transformer_first_partial, C118_same_kind, C118_predictor_first_refuted, C119_per_domain_score_refuted, C119_source_target_score_refuted, C119_per_domain_arrays, C119_source_target_arrays, C119_transform_without_labels, C119_shared_score_partial, C120_construct, C120_set_then_get, C120_replace_base, C120_mask_not_a_parameter_refuted, C120_source_target_refuted, C120_clone, C121_shared_fit_then_transform, C121_labels_after, C121_per_domain_refuted, C121_source_target_refuted, C122_predictor_receives, C122_unset_adapter_output_reported, C122_unset_user_parameter_reported, C122_adapter_output_dropped_refuted, C122_source_target_report_refuted, C123_inner_transformer_partial, C123_alias_refuted, C124_side_keeps_scalars, C124_per_domain_refuted, C125_default_refuted, C126_kernel_matrix, C131_plain, C131_unknown_refused, C131_nearest_ignores, C131_nearest_refuted, C131_nearest_clone, C131_checks_refuted, C131_kernel_check_refuted, C132_plain, C132_jdot_refuted, C132_jdot_loses, C132_none_refuted, C132_fresh_clone, C133_unknown_refused, C133_missing_refused, C133_dasvm_refuted, C133_dasvm_drops, C134_ensemble_refuted, C134_plain_estimator, C134_length, C134_default, C134_identity_test, C134_explicit_default, C134_defaults_usable, C134_left_out, C135_per_call, C135_fresh, C135_class_reg_refuted, C135_class_reg_shared, C136_features, C136_returned, C136_unknown_layer, C137_independent, C137_fitted, C137_clone_unfitted, C137_untrained, C137_trained_refuted, C137_refit_refuted, C137_clone_weights_refuted, C137_cdan_refuted, C138_with_parameter, C138_no_parameter_refuted, C138_cdan_weights_refuted, C140_rows, C140_dataset, C140_empty, C142_default, C142_single, C142_list_once, C142_list_refuted, C144_dann, C144_cdan_refused, C144_mdd_refuted, C144_mdd, C147_completed, C147_no_rewrite, C147_early, C147_interrupted_refuted, C147_amazon_interrupted_refuted, C147_concurrent_refuted, C147_silent_refuted, C148_rows, C148_names, C148_same_labels, C148_refused, C148_categories, C149_one_of_all, C149_partition, C149_amazon, C152_features, C152_domain_free, C152_sources_unmapped, C152_same_features_refuted, C152_source_target_refuted, C152_per_domain_refuted, C152_no_transform, C152_unnamed_layer, C153_folds, C157_proba_offered, C157_domain_information, C157_direct, C157_direct_score, C157_allow_source_refuted, C157_chain_refuted, C157_chain, C157_not_fitted, C157_weights_not_dropped, C158_dict_keys, C158_arrays, C158_arrays_without_weights, C158_dict, C158_dict_X, C158_repairs, C158_len, C158_domains, C158_add_domain, C158_add_domain_weights_refuted, C159_rows, C159_successful, C159_recover, C159_type_errors, C159_weights, C159_refused_weights_refuted, C159_refused_merge_refuted, C160_given, C160_estimator, C160_defaults, C160_linear_default_refuted, C160_unknown, C160_accepts, C160_weights, C160_label_propagation_default, C161_split, C161_merge, C161_maps, C161_shuffle_split, C161_selectors, C162_indices, C162_per_domain_fit, C162_per_domain_predict, C162_monge, C162_splitters, C162_leave_one_out, C163_density_fit, C163_discriminator_fit, C163_maps, C163_monge, C163_per_domain, C166_names, C166_reg_refuted, C166_without_reg, C166_missing, C166_unknown, C166_module_class_refuted, C166_layer_ignored_refuted, C167_class_labels, C168_tensors, C168_labels_visible_refuted, C168_mask_value_refuted, C168_mask_value_arrays, C168_arrays, C168_arrays_to_tensors_refuted, C168_unlabelled_refuted, C169_int_splits, C169_int_leave_one_out, C169_more_splits, C169_more_domains, C169_continue, C169_seeding_before, C169_int_others, C169_seeding_before_others, C169_int_kliep, C169_source_target_valid, C169_source_target_succeeds, C169_domain_shuffle_valid, C169_leave_one_out_valid, C169_stratified_valid, C169_shuffle_keeps_pairs, C169_generated_int, C169_generated_instance_refuted, C169_generated_none, C169_clustering_ignores_seed_refuted, C169_fetch_default_refuted, C169_clustering_refuted, C169_shuffle_rows, C169_pairing, C169_stratified_refused, C170_maps, C170_coral_centred, C170_ot_map, C170_monge, C170_mmdls_classes, C170_mmdls_nearest, C170_per_domain, C170_source_target, C171_any_case, C171_unknown, C171_all, C171_all_raises, C171_office31_hidden, C171_amazon_regression_refuted, C171_home_all, C171_home_visible_refuted, C171_container, C171_container_refuted, C171_csv, C171_csv_refused, C171_data_home, C175_parameters, C175_reading, C175_forget, C176_stratified_split, C176_mmdls, C180_mapping, C182_trained_on_adapted_sources, C182_trained_on_propagated_targets, C183_one_by_one, C183_batches, C184_nothing_missing, C184_source_target_outside, C188_X, C188_X_y, C188_X_y_then_X, C189_same_features, C196_matters, C196_test_time_refuted, C196_verbose_refuted, C196_unseen_domain_refuted, C197_waits, C197_until_fit, C199_source_target, C199_one_domain, C199_one_side, C209_shuffle_split, C209_domain_shuffle, C209_lodo, C209_stratified_train, C209_stratified_test, C209_stratified_refuted, C211_no_under_sampling, C212_careful, C212_careless_refuted, C215_classes, C215_class_minus_one_refuted, C215_auto_domain_refuted, C215_numbers, C221_merge, C221_ot_mapping, C221_coral, C221_subspace, C221_mmdls, C221_pack, C221_pack_masked_refuted, C221_monge_refuted, C221_mixed_merge_refuted, C222_arrays, C222_scalar, C222_list_refuted, C222_large_role_refuted, C222_large_merged_refuted, C222_merge, C223_same_steps, C223_same_names, C223_predicted_labels_refuted, C223_nested_masking_refuted, C223_names_refuted, C227_left_out, C227_default_epoch, C227_one_side, C227_trains_on_all, C227_validation_apart, C227_default_split_refuted, C227_valid_split_refuted, C229_read, C229_set, C229_unknown, C229_base_estimator_refuted, C234_together, C234_one, C234_replaced, C236_splits, C236_leave_one_out, C236_balanced_sampler, C236_one_side_sampler, C236_balanced_loader, C236_one_side_loader, C237_merge_associative, C237_select_of_merge, C237_selections_commute, C237_selection_inside, C237_selections_disjoint, C240_fit, C240_masked, C240_apply.
* `ClassicalDedekindReals.sig_forall_dec` (38 theorems):
  C34_kliep, C34_kmm, C41_kernel_new_data, C41_kernel_block_order_partial, C44_target_rows, C44_source_independent, C49_score, C63_source_labels_only, C63_target_labels_unused, C65_runs, C65_ignores_features, C109_multilinear, C114_translation, C114_accepts, C114_labels, C125_default_components, C125_own_domain, C161_kernel_maps, C163_kliep_weights, C163_kernel_maps, C163_supervised, C165_flatten, C170_kernel_maps, C170_kernel_maps_sources_first, C170_kliep, C170_kmm, C172_none_supervised, C172_function_supervised, C172_string_supervised_refuted, C172_made_supervised, C174_kernel_maps, C176_circular, C179_circular, C206_default_is_all, C215_circular_numbers, C215_circular_whole_numbers_refuted, C221_circular, C239_supervised.
* `FunctionalExtensionality.functional_extensionality_dep` (3 theorems):
  C191_defaults_partial, C191_kmm_refuted, C191_default_estimator.
* `ClassicalDedekindReals.sig_forall_dec`, `FunctionalExtensionality.functional_extensionality_dep` (271 theorems):
  C08_frank_wolfe_feasible, C08_frank_wolfe_returns, C08_zero_iterations_infeasible, C09_linear_minimiser, C10_equality, C10_two_sided, C10_one_sided, C10_nearly_opposite, C10_rejects, C10_bounds_ignored_refuted, C10_both_constraints_refuted, C10_negative_lower_bound_refuted, C34_gaussian, C34_density, C34_discriminator, C36_reversed_order, C36_grows_with_target_likeness_refuted, C38_exact_counts, C38_mirrored_partial, C38_counts_targets_refuted, C42_one_iteration, C42_stops_early_refuted, C42_later_stops_partial, C42_negative_tolerance, C45_weights, C48_column_loss_partial, C48_default_loss_value, C48_weights, C48_default_loss_refuted, C50_mixval, C51_taylor, C52_discrete_labels, C52_regression_labels, C52_ignores_target_labels, C52_by_values, C53_jcpot_labels_partial, C53_jcpot_columns, C53_target_order_refuted, C53_label_values_refuted, C54_regression_run, C54_regression_succeeds, C55_fitting_data, C56_selection_step, C56_progress, C56_at_most_one_per_class, C56_k_per_class_refuted, C56_first_selection, C56_iteration, C57_predict_and_decision, C57_proba_is_source_model, C57_proba_refuted, C58_interpolated, C59_number_of_samples, C59_advanced, C59_completes_partial, C59_ties_refuted, C64_aligned, C64_zero_labels_raise_refuted, C64_reduced_loss_raises, C64_wrong_weights_refuted, C64_no_weights, C64_single_source, C65_moving_average_refuted, C65_decay, C69_restart_refuted, C78_converges, C78_gap_vanishes, C78_single_row_refuted, C79_scipy_problem, C79_start, C80_single_bandwidth, C80_selects_best_bandwidth, C80_refit_single_partial, C80_refit_numbers_partial, C80_refit_equals_fresh_fit_refuted, C81_tars_weights, C83_undefined, C84_sources_first_partial, C84_interleaved_refuted, C85_mmd_matrix, C85_centring_matrix, C89_moved_labels_in_range, C89_label_propagation_in_range, C89_jdot_fits_in_range, C91_label_propagation_marginals, C91_jdot_regression_marginals, C92_class_weights, C92_weights_of_a_target, C92_threshold, C93_only_through_the_plan, C93_target_labels_used_refuted, C94_max_iter_grows, C94_refit_refuted, C95_exact, C95_completes_partial, C95_all_added_raises, C95_fit_raises_refuted, C96_training_sets, C96_target_labels_unused, C97_self_training, C101_accuracy, C101_weighted, C101_mixed_raises_refuted, C102_no_domain_raises_refuted, C103_value, C103_zero_iff, C103_shift, C103_assume_centered_refuted, C110_pseudo_label, C111_subspace_binary, C111_subspace_mislabelled_refuted, C111_subspace_split_refuted, C116_labels, C116_too_many, C116_dataset, C116_frequencies, C116_weights_refuted, C125_alignment_is_closest, C126_no_shift_case, C126_not_optimal_refuted, C129_contract_met, C129_constructor, C129_orthonormal, C130_torch_minimize, C143_source_only, C143_target_only, C143_target_weights_refuted, C145_chain, C145_features, C145_classifier, C150_rows, C150_range, C150_all_refuted, C154_lengths, C154_weights, C161_weights, C161_estimators, C162_label_propagation, C163_gaussian_weights, C163_density_weights, C163_discriminator_weights, C163_importance, C164_deep_coral, C165_mnist_training_average, C165_mnist_first_dropout, C165_conv1, C165_conv3, C165_maxpool, C165_pool, C165_linear, C165_relu, C165_dropout_mean, C165_cnn_num_features, C165_cnn_new, C165_cnn_sample_wise, C165_cnn_shape, C165_mnist_sample_wise, C165_mnist_accepts, C165_mnist_shape, C167_defaults, C170_gaussian, C170_density, C170_discriminator, C172_function_importance, C172_function_mixval, C172_function_refuted, C172_string_refuted, C172_unknown, C172_options, C172_made_mixval, C174_motion, C174_density, C174_nearest, C174_labels, C174_scale_sees_origin, C176_label_prop, C176_dasvm, C176_mixval, C178_regression, C180_propagation, C180_dasvm, C181_propagation, C186_discriminator, C186_label_propagation, C186_label_propagation_regression, C187_coral_targets, C191_starting_point_refuted, C193_label_propagation, C193_label_propagation_regression, C193_mapping, C195_regulariser, C195_classes, C195_label_kernel, C196_sigma_ch_refuted, C197_coral_refuted, C197_kernel_refuted, C202_constraint, C202_no_rounding, C202_weights_sum, C202_returns, C203_accurate, C206_contract_met, C206_alignment_contracts, C206_all_components, C206_transfer_subspace, C207_density, C207_gaussian, C207_scorer, C207_discriminator_refuted, C210_label_propagation, C210_plain_mean, C210_class_shares, C210_jdot, C211_jdot_features_only, C211_jdot_is_label_propagation, C211_jdot_labels_only, C213_supervised, C213_importance, C213_circular, C213_mixval_constant, C213_mixval_refuted, C214_bandwidths, C214_jdot_regression, C216_label_propagation, C216_jdot, C216_origin, C216_unit_refuted, C216_whole_numbers_refuted, C217_propagation, C217_jdot_refuted, C217_deep, C217_deep_refuted, C224_propagation, C224_deep, C224_deep_ones, C224_deep_refuted, C225_threshold, C225_alpha, C226_nearest_refuted, C228_dev_column, C228_dev_equal_weights_refuted, C228_dev_default_refuted, C228_dev_larger_refuted, C228_importance, C230_coral, C230_coral_units, C231_label_regression, C231_label_class, C231_jdot_regression, C232_label_propagation, C233_dasvm, C233_gradual, C233_label_propagation, C233_jcpot_refuted, C235_jdot_regression, C235_tjm, C238_moved_among_targets, C239_mixval, C241_close, C241_unique, C241_equality, C241_two_sided, C242_jdot_regression, C243_subspace_alignment, C243_transport, C245_transport, C245_transport_order, C246_equal_steps, C246_default_refuted, C247_quantiles, C247_sorted.
* `ClassicalDedekindReals.sig_forall_dec`, `ClassicalDedekindReals.sig_not_dec`, `FunctionalExtensionality.functional_extensionality_dep` (197 theorems):
  C35_density_mean_one, C35_underflow_refuted, C39_kmm_mean_bounds, C39_negative_eps, C39_upper_bound_refuted, C41_interleaved_refuted, C51_softmax, C65_start, C66_constant_refuted, C68_best_run, C68_run, C68_tolerance, C68_iterations, C68_degenerate, C68_best_initialisation, C70_shapes, C70_cost, C70_unequal_sizes, C72_sizes, C72_succeeds, C72_target_shift, C81_tars_fit, C86_covariance_match, C86_moment_match, C86_square_roots, C86_eigensolver_exists, C105_kept, C107_descent, C107_steps, C107_inertia_converged, C107_predict_scale, C107_inertia_refuted, C107_nearest, C107_inertia_value, C107_never_worse, C108_centroids, C108_other_labels_refuted, C109_width, C109_same_projection, C109_global_generator_refuted, C109_no_seed_refuted, C109_random_map, C110_neighbours, C110_too_few, C111_clusters, C112_covariate, C112_target, C112_conditional, C112_subspace, C112_labels_kept, C112_standardized, C113_subspace_refuted, C113_labels, C115_centres, C115_end_refuted, C115_layout, C115_names, C126_contracts_met, C127_pca, C127_flda_loss_is_separation_refuted, C127_flda_refuted, C127_lpp_loss_is_minus_spread_refuted, C127_lpp_refuted, C128_contracts_met, C128_symmetric_and_zero, C129_objective, C139_probabilities, C139_refused, C139_other_criterion_refuted, C141_nonneg, C141_symmetric, C141_order, C141_rigid, C141_zero, C141_defined, C141_refused, C141_value, C141_cosine_scale, C144_cdan_size, C146_start, C146_terms, C154_fit, C154_problem, C154_label_function_refuted, C155_none, C155_number, C155_number_centered, C155_refused, C155_auto, C155_covariance, C155_definite, C155_translation, C155_assume_centered_refuted, C155_coral, C155_auto_constant, C156_translation, C156_units, C156_no_shift, C163_covariance, C163_moments_fit, C165_toy2d_training_average, C165_toy2d_sample_wise, C165_toy2d_shape, C170_kernel_training_refuted, C170_mmdtars, C170_kmm_training_refuted, C174_kmm, C174_mmdtars, C174_mmdtars_continuous, C174_instances, C174_units, C176_tsl, C177_kmm_scipy, C177_kmm_frank_wolfe, C177_mmdtars, C177_feature_map, C177_kmm_scipy_on, C177_rbf_frank_wolfe, C177_rbf_scipy, C177_rbf_mmdtars, C180_reweighting, C185_same_moments, C185_same_second_moments, C185_single_source, C186_coral_auto_refuted, C186_coral_number, C186_coral_reg, C186_coral, C186_coral_centred, C186_monge, C186_density, C186_kmm, C186_importance_scorer, C187_coral_auto_refuted, C187_coral_number, C187_coral_sources, C187_coral_centred, C187_monge, C190_coral, C190_coral_maps, C190_gaussian, C190_monge, C192_clusters_are_classes, C195_objective, C195_numbers, C196_center_refuted, C198_coral_auto_refuted, C198_coral, C198_coral_centred, C198_monge, C200_coral_centred, C200_coral, C200_monge, C200_coral_reg, C208_zero, C208_one, C208_auto_full, C208_none, C214_kmeans_iterations, C214_kmeans_restarts, C214_kmeans, C214_kmm, C214_frank_wolfe_refuted, C218_monge, C218_monge_linear, C218_coral_uncorrelated, C218_coral_longer, C219_monge, C219_coral, C219_coral_alike, C219_coral_refuted, C220_features, C220_labels, C226_coral, C226_monge, C230_jdot, C231_coral, C231_gaussian_refuted, C232_tars, C235_kmeans, C242_kmeans_iterations, C242_kmeans_ends, C243_kmm, C243_kmm_frank_wolfe, C243_frank_wolfe_refuted, C243_coral, C243_coral_refuted, C243_coral_shrunk, C244_coral, C244_coral_shrunk, C244_coral_any, C244_coral_uncorrelated, C244_monge, C244_coral_alone, C245_monge, C245_coral_order, C245_coral_refuted.
* `ClassicalDedekindReals.sig_forall_dec`, `Classical_Prop.classic`, `FunctionalExtensionality.functional_extensionality_dep` (3 theorems):
  C246_do_not_meet, C247_labels, C247_numbers.
* `ClassicalDedekindReals.sig_forall_dec`, `ClassicalDedekindReals.sig_not_dec`, `Classical_Prop.classic`, `FunctionalExtensionality.functional_extensionality_dep` (156 theorems):
  C37_kliep_mean_one, C46_sum, C46_mean_value, C46_none_value, C46_mean_none_refuted, C47_mean_of_entropies, C51_power_mean, C51_probabilities, C51_deep, C54_label_loss, C54_classification_run, C66_dann_constant, C66_two_outputs, C67_mcc_bounded, C67_mcc_value, C69_ranges, C70_default_criterion, C71_all_pairs, C71_own_label_refuted, C71_agreeing_labels, C71_mdd_loss, C82_softmax_unaffected_partial, C82_taylor_refuted, C83_defined, C83_three_distinct, C83_taylor_zero_refuted, C88_label_cost, C88_better_class_is_cheaper, C88_more_probable_is_cheaper, C88_binary_hinge_refuted, C91_jdot_classification_marginals, C104_value, C104_default_bandwidths, C104_nonneg, C104_same_batch, C104_bounded, C104_symmetric, C104_gaussian_refuted, C105_value_refuted, C105_filter_refuted, C105_value, C105_no_valid_class, C105_single_class_error, C110_loss, C128_negative_refuted, C139_labels, C139_first_largest, C146_nonneg, C151_labels_from_zero, C151_one_per_sample, C151_range, C151_other_labels_refuted, C151_float_labels_refuted, C153_selected, C153_held_out, C153_refuses, C153_fit, C161_weight_models, C161_scores, C163_entropy, C163_soft_neighborhood, C164_dan, C164_mcc, C164_mdd, C164_can, C165_toy2d_proba, C166_base_class_refuted, C166_domain_class_refuted, C167_dann, C167_mdd, C167_divergences, C167_deepjdot, C167_spa, C167_baselines, C167_base_default, C173_estimators, C173_like_new, C173_order, C173_recorded, C173_value, C173_kept, C174_kliep, C174_kliep_cv, C176_jdot, C177_kmm_solver_exists, C177_mmdtars_solver_exists, C178_solver_exists, C178_classification, C178_threshold, C179_no_target_labels, C179_classification, C181_jdot, C190_entropy, C190_mano, C190_dan, C194_likelihood_refuted, C194_iterations, C194_gradient, C195_gaussian_refuted, C195_label_kernel_refuted, C201_never_too_many, C201_all_and_none, C201_monotone, C201_within_one, C201_exact_refuted, C201_target_shift, C201_cut_off, C202_nonnegative, C202_million, C202_weights_in_range, C203_power_of_two, C203_last_step_refuted, C204_density, C204_scorer, C204_kde, C204_overflow, C204_new_sample_refuted, C204_signs, C205_number, C205_nan, C205_temperature_refuted, C207_histogram, C211_jdot_class_labels_only, C211_jdot_class_features_only, C213_entropy, C213_mano, C213_mano_small_p_refuted, C213_snd_constant, C213_snd_refuted, C213_dev_refuted, C214_jdot_classification, C220_weights, C220_default_bandwidth_refuted, C224_jdot, C225_temperature, C225_power, C225_mano, C226_kliep, C226_kmm, C226_kernel_maps, C230_dan, C230_cdd, C230_cdd_refuted, C230_dan_units, C231_jdot_classification, C231_density, C232_jdot, C232_can_refuted, C233_jdot, C235_jdot_classification, C235_kliep, C239_entropy, C239_soft_neighbourhood, C239_mano, C242_jdot_classification, C242_jdot_threshold.
