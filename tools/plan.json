{
 "C01": "Masks/boolean select on lists; spec by filter of an enumerated list. Induction on the label list.",
 "C02": "Compose split and merge models; induction over the interleaving.",
 "C03": "Merge model incl. dtype casts and error branches; spec by counting positions. Expect refutation of 'values unchanged' for mixed dtypes.",
 "C04": "Merge model on label arrays with `_find_y_type`; case split.",
 "C05": "Full check_X_domain model; iff with a declarative spec. Expect refutation for multi-target.",
 "C06": "check_X_y_domain/_check_y_masking model over numeric/NaN/inf labels.",
 "C07": "Sorted-unique + flatnonzero model; Permutation statement.",
 "C08": "frank_wolfe over R with arbitrary oracle; invariant by induction on iterations.",
 "C09": "Inequality over R for arbitrary feasible competitor.",
 "C10": "Branch model of qp_solve front end + frank_wolfe feasibility. Expect refutation for bounds.",
 "C11": "remove_masked model with parameter dictionary; spec by kept positions.",
 "C12": "Scatter model with zeros-initialised output; pointwise spec.",
 "C13": "Shared._fit model returning the exact call arguments; two-run theorem.",
 "C14": "State-passing model of in-place masking. Expect refutation.",
 "C15": "PerDomain fit/route model with abstract estimator (Section variables).",
 "C16": "Same model, masked predictor path. Expect refutation.",
 "C17": "_BaseSelectDomain model.",
 "C18": "SelectSourceTarget model.",
 "C19": "Container merge model, fold over arbitrary step lists.",
 "C20": "Name counter model over strings; NoDup proof.",
 "C21": "make_da_pipeline model (recursive flattening over step trees).",
 "C22": "Fold model of _wrap_with_selectors; prefix/suffix spec.",
 "C23": "pack model; list-concatenation spec with signed ids.",
 "C24": "pack label part with mask threading.",
 "C25": "State machine of add_domain; history induction. Expect refutation on collisions + positive theorem without collisions.",
 "C26": "Composition pack + per_domain_split.",
 "C27": "select_domain model.",
 "C28": "Permutation-based split model.",
 "C29": "Rational-arithmetic model of _validate_shuffle_split.",
 "C30": "LODO model with permutation oracles. Expect refutation for label 0.",
 "C31": "Group-wise model with allocation oracle (contract stated).",
 "C32": "DomainShuffleSplit model.",
 "C33": "Subsampler models with splitter index oracle.",
 "C34": "compute_weights models with oracle values; scatter spec.",
 "C35": "Real-number normalisation.",
 "C36": "Real-number monotonicity. Expect refutation.",
 "C37": "KLIEP loop over R; invariant.",
 "C38": "Index model of the complement indexing. Expect refutation.",
 "C39": "KMM constraints via frank_wolfe. Expect refutation of bound B.",
 "C40": "BaseOTMapping.transform model with oracle map.",
 "C41": "TCA/TJM/SA transform models with row-wise oracle maps. Expect refutation.",
 "C42": "TJM loop model over R. Expect refutation.",
 "C43": "Per-domain affine map model.",
 "C44": "Scorer model, two-run theorem.",
 "C45": "Real normalisation.",
 "C46": "Real entropy bounds (ln inequality). Expect refutation for reductions.",
 "C47": "Softmax over whole matrix. Expect refutation.",
 "C48": "Broadcast model of (n,1)*(n,). Expect refutation.",
 "C49": "CircularValidation data-flow model. Expect refutation for label 0.",
 "C50": "MixVal index model.",
 "C51": "Real bounds on p-norm/softmax/taylor.",
 "C52": "Label propagation by argmax over oracle plan.",
 "C53": "JCPOT index model. Expect refutation.",
 "C54": "Loop model with loss oracle.",
 "C55": "repeat/flatten model; flat_map spec.",
 "C56": "Selection step model with masks. Expect partial refutation (k points per class).",
 "C57": "Attribute-level model. Expect refutation.",
 "C58": "Real convex combinations.",
 "C59": "Sorting/threshold model. Expect refutation on ties.",
 "C60": "Sampler model with arbitrary permutations per restart.",
 "C61": "Sampler model.",
 "C62": "Record-of-lists model.",
 "C63": "Criterion forward data-flow model.",
 "C64": "Mask mismatch model. Expect refutation.",
 "C65": "Memory bank update. Expect refutation.",
 "C66": "Softmax over one class. Expect refutation.",
 "C67": "Real bounds.",
 "C68": "Fold with argmin.",
 "C69": "Schedules over R, epoch counter state machine. Expect refutation of restart.",
 "C70": "Index bookkeeping of repeat/permute/reshape.",
 "C71": "Indexing `[..., target]`. Expect refutation.",
 "C72": "Counting model with arbitrary RNG draws.",
 "C73": "The selector models chained over an arbitrary list of steps (`PipeModel`/`SelectModel`), two-run theorem by induction on the steps. Witness for SelectTarget followed by a masking step.",
 "C74": "`clone` of selectors as construction from `get_params`; the state the constructor does not know (final flag, masking flag) is followed. Witnesses by computation.",
 "C75": "make_da_pipeline as a state change on the wrapped estimators; frame theorem for the steps that are not selectors, witness for a nested pipeline.",
 "C76": "pack with its name table; rows selected by a signed id compared with the rows of the named domain.",
 "C77": "pack_lodo: list of packed blocks; counting and sign spec. Witness for `return_X_y=False` being ignored.",
 "C78": "Frank-Wolfe rate: the classical O(1/t) bound by induction for symmetric positive semidefinite quadratics with a linear oracle; limit statement in epsilon form. Witness for a constraint matrix with one row.",
 "C79": "The arguments given to scipy.optimize.minimize are the result of the model; spec: objective, gradient, bounds and constraints of the documented problem.",
 "C80": "KLIEP fit as a state change of the estimator; refit compared with fit of a fresh object. Witness for a list of gammas.",
 "C81": "MMDTarS on discrete labels: class weights by Frank-Wolfe/oracle, scatter by class.",
 "C82": "MaNo softmax/taylor branch; softmax shown invariant, witness for the Taylor branch.",
 "C83": "MaNo Taylor branch on 2 + 2x + x^2, witness with a zero denominator after the shift.",
 "C84": "TJM source weights and their positions; witness with interleaved domains.",
 "C85": "Entries of the MMD and centring matrices over R; row sums by induction on index ranges.",
 "C86": "CORAL over matrices as functions with eigendecomposition/square roots as oracle contract; covariance identity by matrix algebra. ThmSpectral proves that symmetric matrices have an orthonormal eigenbasis by induction: a border and the intermediate value theorem for the secular equation give one eigenvector, a reflection splits it off.",
 "C87": "MMDLSConS: fit and the three transform cases (training rows, known classes, unseen class) with linear algebra as oracle.",
 "C88": "JDOT class loss: real inequalities for cross entropy and hinge; witness for the binary hinge.",
 "C89": "Barycentric projection as convex combination; bounds by induction over the plan row.",
 "C90": "JDOT data flow, two-run theorem.",
 "C91": "Marginals handed to the OT oracle are the model's output; normalisation over R.",
 "C92": "Rows with plan weights above the threshold; sums by induction.",
 "C93": "Gradual adaptation data flow; two-run theorem through the plan, witness where the plan sees target labels.",
 "C94": "max_iter as mutable attribute of the base estimator; growth by induction over steps.",
 "C95": "DASVM loop with explicit fuel and oracle classifier; completion under a bound on iterations, witnesses where fit raises.",
 "C96": "Training sets along the DASVM loop: invariant over an arbitrary number of iterations.",
 "C97": "Gradual steps as fold over interpolation weights; equality with the specified self-training sequence.",
 "C98": "Merged dataset and the loop of the loader; witness.",
 "C99": "Defaults of DeepDADataset by case analysis on what is given.",
 "C100": "Batching as chunks of a list with a row-wise module; concatenation by induction over the batches.",
 "C101": "score as weighted mean of hits over R.",
 "C102": "Call path of predict without domain labels; witness.",
 "C103": "Covariance entries over R; value, zero characterisation, shift invariance.",
 "C104": "DAN: kernel mean discrepancy as a squared norm (PD kernel argument for the Gaussian kernels in `PDKernel`), bounds, symmetry.",
 "C105": "CDD: filter by distance threshold and class count; value against a spec, witnesses for the differences to the documentation.",
 "C106": "Memory-bank slots by sample index; witness for two targets.",
 "C107": "Spherical k-means: descent of the objective over one step (Cauchy-Schwarz), iterated by induction.",
 "C108": "Class sums as filtered sums.",
 "C109": "CDAN multilinear map: outer product, and random projection with the generator state threaded.",
 "C110": "k nearest stored neighbours by stable sort of distances; averages over R.",
 "C111": "Generators with arbitrary draws: labels by block. Witnesses for the subspace generator.",
 "C112": "Shift generators with arbitrary draws; what stays equal between source and target.",
 "C113": "Density formulas over R against the sample positions.",
 "C114": "Translation of rows; pointwise.",
 "C115": "Moon centres over R; witness for the end position.",
 "C116": "Signals per channel: broadcasting of weights; witness.",
 "C117": "available_if of the selectors as method tables; case analysis on the wrapped estimator.",
 "C118": "Kind of the wrapped estimators; witness for predictor first.",
 "C119": "Score paths of the selectors; equality with the wrapped score.",
 "C120": "get_params/set_params/clone of selectors as maps from names to values.",
 "C121": "fit_transform paths; equality with fit followed by transform.",
 "C122": "Metadata merge at the final estimator; every dropped key is reported or not.",
 "C123": "Inner transformers compared with final ones.",
 "C124": "Scalars in the parameter dictionary of per-domain calls.",
 "C125": "Least-squares optimality of the alignment matrix over R with orthonormal bases; default number of components as minimum of shapes; witness.",
 "C126": "TCA kernel matrix entries, and the eigenproblem as contract of the solver; witness that the returned components do not minimise.",
 "C127": "Losses of PCA, FLDA, LPP against their definitions over R.",
 "C128": "Discrepancy formula over R; witness with a negative value.",
 "C129": "Constructor checks and the QR contract.",
 "C130": "torch_minimize loop with optimiser oracle; the loss returned is that of the point returned.",
 "C131": "Constructors and set_params as attribute tables for every public estimator class; case analysis over the classes.",
 "C132": "clone = constructor applied to get_params, over the same tables.",
 "C133": "Signatures and keyword dictionaries.",
 "C134": "Truth value of estimators (`base_estimator or default`); witness for an ensemble.",
 "C135": "Default arguments: evaluated once or per call, object identities on a heap.",
 "C136": "Forward hooks on a named layer: heap of modules with a history invariant.",
 "C137": "Heap of modules with deepcopy; independence as frame property, witnesses for shared modules.",
 "C138": "Parameter lists of a net with and without trainable parameters.",
 "C139": "softmax probabilities and first argmax over R.",
 "C140": "predict_features as concatenation over batches.",
 "C141": "Laplacian spectra with singular values as an oracle (permutation-invariant); invariance under permutations, motions, scaling, and the value.",
 "C142": "Callback counters as a state machine over any number of epochs.",
 "C143": "Domain-only samplers and the masks of the loss.",
 "C144": "Sizes of default domain classifiers, shape checks of Linear.",
 "C145": "Chain rule for a differentiable loss (gradient as linear approximation) and the reversal factor.",
 "C146": "SPA loss terms over R.",
 "C147": "File-system state machine with crash points between the steps of the download; witnesses for interruptions and concurrency.",
 "C148": "Office-31 directory tree as list of files; labels by category.",
 "C149": "Office-Home and Amazon tables; partition by domain.",
 "C150": "MNIST-USPS sampling with an arbitrary draw.",
 "C151": "Log-loss indexing of DEV; witness for labels not starting at zero.",
 "C152": "Features extracted by DEV compared with what the final estimator receives.",
 "C153": "KLIEP cross-validation: folds, likelihood scores, argmax.",
 "C154": "MMDTarS on continuous labels: the problem handed over and the constraints of the weights.",
 "C155": "Covariance estimates over R with ledoit_wolf as oracle; translation invariance and definiteness.",
 "C156": "Ratios of Gaussian densities over R; affine changes of variable.",
 "C157": "Wrapper estimators: accepted metadata, chaining, not-fitted checks.",
 "C158": "DeepDADataset as record of lists; round trips with the array and dict views.",
 "C159": "Operations on the dataset as state changes that return the state also when they raise.",
 "C160": "Factory shorthands as step lists compared with the documented pipeline.",
 "C161": "Two-run theorem under a relabelling of the domains that keeps signs.",
 "C162": "Two-run theorem under an injective relabelling.",
 "C163": "Two-run theorem under a permutation of the samples, model by model.",
 "C164": "Two-run theorem under a permutation of the batch for the deep losses.",
 "C165": "torch.nn layers as real functions on lists; sizes by length computation, sample-wise by mapM.",
 "C166": "Signatures of the deep methods and the keyword names skorch accepts, as tables; case analysis.",
 "C167": "The builders return a configuration whose training loss is unfolded to the announced sum.",
 "C168": "pack over domains that carry the kind of their containers, np.concatenate/torch.cat as list concatenation with their type errors; all return types. Theorems over every list of domains.",
 "C169": "The generators are state machines in a world holding numpy's global generator, the instances and torch's generator; every draw of the splitters, loaders, scorers and KLIEP is modelled in order, and splits are computed lazily with arbitrary code of the caller in between. Proved by induction on the number of splits; validity of the splits by reduction to the theorems on SplitModel.",
 "C170": "A selection of the samples is a list of flags. The closed forms already proved for every transform (C40, C41, C43, C86, C87) and weight computation (C34, C81) are pointwise in the samples, and selecting commutes with pointwise maps; the two normalised weights are compared through the ratio of their means. The two refutations evaluate the model on training data.",
 "C171": "The public functions are written over the loaders and the disk of C147-C149: resolution of the domain argument, loop over the enumeration with add_domain, choice of the container; the csv reader delivers rows of fields. Induction on the enumeration gives the dataset, C24 the masked labels; Office-Home: every domain has labels of another dtype, so the masked and the unmasked loop of pack are equal step by step.",
 "C172": "Callables are modelled with the keywords they accept, so that an unexpected keyword is a TypeError; check_scoring, scorer objects and the score method are written over them and plugged into the scores of C44, C45 and C50. The failing cases follow by showing that no path of those scores avoids the call.",
 "C173": "Estimators are objects on a growing heap, a scorer is the record of the attributes scoring writes. Each scoring is written with its writes and reads in program order; its value is shown equal to the memoryless scores of C45, C48, C49, C51, and the heap to be extended only; induction over the series of calls.",
 "C174": "The models of the adapters are polymorphic in the rows and take the kernel as an argument; each step (selection, splitting, kernel matrix, loop, lookup of equal arrays) is shown to commute with a map on rows that preserves the kernel, then composed for fit followed by a later call.",
 "C175": "Each method is a program over the attributes of the object, run with arbitrary meanings of its lines. A definite-assignment check is proved sound (two objects that agree on the attributes known so far give the same results and still agree), it is evaluated on the table of all classes, and histories are handled by induction.",
 "C176": "unique, searches, comparisons and one-hot encodings commute with an order-preserving map; each method is then followed line by line with both sets of labels, errors included.",
 "C177": "The quadratic form and the linear term are rewritten through the feature map as n^2/2 times (squared distance of the means minus a constant), by exchanging finite sums; minimality then comes from the contract of the solver, and the rate from C78 with the curvature bounded through |kern(x,y)| <= kappa and the l1 norm of the weights.",
 "C178": "Invariant of the loop: the cost matrix of the next iteration is the total cost for the predictor found last, and the last plan costs at most the last loss there. The estimator step: the label cost of a plan differs from the weighted loss of the estimator by a constant (bias-variance, regression) or a factor (classification).",
 "C179": "The checks of the input only use the number of labels when domains are given; then each score is rewritten through the selected source labels, which agree.",
 "C180": "source_target_split and per_domain_split give the same source halves and fail together for label vectors that agree on the sources; the target halves are dropped.",
 "C181": "The marginals divide by their sum, so a positive factor cancels; the loop of JDOT is followed by induction.",
 "C182": "Induction over the adapters with the masked labels as an invariant (masking twice changes nothing), then the removal of masked samples at the final step rewritten as the selection of sources or targets.",
 "C183": "Each selector is rewritten as a function applied to each pair of label and row (C15, C18 give the rows of every domain; rows of all domains determine the array), then induction over the steps.",
 "C184": "Method bodies are programs over attributes (HistModel). A check by computation that every attribute read was put before, sound for all outcomes by induction over histories.",
 "C185": "Symmetric square roots from the spectral theorem; the Bures-Wasserstein matrix A satisfies A C A = B, so the mapped moments are those of the barycentre; rows of a domain are looked up by its label.",
 "C186": "The whitening and colouring matrices are inverse to each other (roots are unique); ratios of equal densities are one; the weights 1 reach discrepancy 0, so a minimiser does; a permutation gives a plan of cost 0, so an exact plan moves mass between equal rows only. Equal log-densities give equal ratios, so the importance-weighted scorer gets weights 1/n.",
 "C187": "The covariance of moved data is the conjugated, scaled covariance; positive semi-definite roots are unique, so its root and inverse root are the conjugated ones whatever eigenvectors the solver picks; the orthogonal factors cancel in the products. The trace is invariant under rotations, so shrinking by a number commutes with them; shrinking towards the diagonal does not.",
 "C188": "Case analysis of the two functions; the flag checks are monotone and depend on the returned domain labels only.",
 "C189": "Induction over the steps: the container and the parameters after each fitted step agree on the source rows with those met during fit.",
 "C190": "Sums over k tiled copies are k times the sum (induction on k), and every statistic used divides by the number of rows.",
 "C191": "The docstrings' defaults are written out as a table (specification); a general lemma says that giving an argument with a default binds it and nothing else; the table is compared with the signatures entry by entry.",
 "C192": "The callback is modelled as centroids followed by k-means; separation makes the assignment step return the classes, the update step the class directions, which are a fixed point.",
 "C193": "A recalibration with positive factors has potentials u, v such that the cost minus u minus v is non-negative and zero between copies only; hence an optimal coupling of uniform masses couples copies only; labels and barycentres follow.",
 "C194": "The loop is identified with the iterates of an explicit ascent step (induction on the iterations); the gradient is computed with the standard library's derivatives; the refutation evaluates two iterations exactly and bounds logarithms.",
 "C195": "The objective is modelled line by line with matrices as functions (MmdlsModel) and rewritten, by exchanging finite sums, into the squared discrepancy of weighted samples; the refutations compare explicit one-dimensional data sets with bounds on exp.",
 "C196": "Method bodies are programs over attributes (HistModel). A parameter no line reads changes nothing, by the two-run agreement lemma of C175; for the others a concrete meaning of the lines (each adds up what it is given) separates two values, by computation over all 128 parameters.",
 "C197": "The same agreement lemma for the methods that do not fit, from an arbitrary state; the exceptions are an explicit table, with numeric witnesses in the models of CORAL and of the kernel methods.",
 "C198": "The first alignment gives every domain the moments of the centre (C86, C185), and on data with equal moments the mapping is the identity (C186). With shrinkage the covariance of the aligned sources is the shrunk target covariance and is shrunk once more by the second fit.",
 "C199": "Unfold both selectors of SelectModel on the same input; masks that keep everything and index lists 0..n-1 are identities, and merging a step's own metadata again changes nothing.",
 "C200": "CORAL, whatever the estimates: the product of the two maps is sqrt and inverse sqrt of the same matrices and cancels (ThmBack.there_and_back). Monge: the mapping between two Gaussians A = C^{-1/2}(C^{1/2} D C^{1/2})^{1/2} C^{-1/2} is the unique positive definite solution of A C A = D, so the reverse mapping is its inverse.",
 "C201": "Rounding to nearest is monotone and leaves integers below 2^53 alone (Flocq), so int(n f) lies between the floors; the witness is computed by exhibiting the rounded mantissas.",
 "C202": "Each rounding is monotone and keeps 0, 1, 2, which gives signs and ranges; relative errors (1+u)^k are accumulated by induction over iterations and over the tree of additions.",
 "C203": "Three applications of the relative error bound; powers of two scale exactly (Flocq mult_bpow_exact_FLX); the witness by exhibiting mantissas.",
 "C204": "binary64 values extended with infinities and nan (FiniteModel), sums over any tree of additions. Upper bounds on each exponential and on the sum; a positive sum dominates each summand by monotonicity of rounding; at a fitted sample the source density is at least K(0)/n.",
 "C205": "Bounds through each step of softmax and entropy: scaled similarities at most 2^8, exponentials at least 2^-740, hence logs finite; for small temperatures the first row has an exponential that underflows to 0, and 0 * log 0 = nan absorbs the sum.",
 "C206": "The rows are x P^T (P_s P_t^T) etc. with P square orthonormal, so P P^T = P^T P = I and the product is a rotation; distances are preserved by rotations.",
 "C207": "Sum over sources of T(x)/S(x) f(x): exchange the sums over source and target samples, each target value is counted as often as it occurs among the sources; with f = 1 the mean of the weights is 1, so normalising does nothing.",
 "C208": "The shrunk estimates at the ends are multiples of the identity or diagonal; roots of diagonal matrices are diagonal because positive semi-definite roots are unique.",
 "C209": "The exact sizes of C28, C30 and C32 are positive on each side. For the stratified splitter the proportional allocation with largest remainders is a contract; the witness determines it completely.",
 "C210": "Exchange the two sums over the plan; the spread by the decomposition of the squared distance around the barycentre.",
 "C211": "At alpha=0 every iteration solves the same problem, so the second one sees no change; at alpha=1 the cost does not depend on the distances. A sub-sample with all of every domain is a permutation of all samples.",
 "C212": "On the model of the attributes (HistModel): a check that everything visible is written by one statement followed by storing lines only; for the other classes a computation that marks values with the data they come from shows the mixture.",
 "C213": "On the model of the scorers: bounds for all models with equality for certain ones (the entropy entries are non-negative, t^p <= t, shares of right predictions), the entropy of a softmax for the neighbourhood density, and witnesses for the scorers that fail.",
 "C214": "Inductions that compare two runs of the same loop with different bounds and tolerances (the shorter one is a prefix of the longer one), monotonicity of the sets of allowed weights and candidates, and a run of Frank-Wolfe that leaves the optimum.",
 "C215": "On the models of the selectors, of check_X_y_domain and of CircularValidation: the exact training set for every label vector by induction over the samples, hence the loss of the samples of class -1 on every data set; the exact expression of the circular score for both kinds of labels.",
 "C216": "On the models of OTLabelPropAdapter and solve_jdot_regression: the transported labels commute with affine maps since the plan has the right column sums; induction over the iterations of JDOT with the invariant that plan and predictions correspond; for the refutation the optimal 2 by 3 plans are computed from the order of the relative costs, for every exact solver.",
 "C217": "On the models of OTLabelPropAdapter, solve_jdot_regression and get_loss: sources without mass have empty rows in every plan, so masses per class, transported labels and weighted sums do not see them; an exact solver for one more source without mass is one for the others, which gives the plans of the JDOT witness.",
 "C218": "On the numerical model of the alignment: the map is symmetric with a non-negative symmetric inverse, completing the square in the inverse gives the excess of any competitor with the same second moments; equality forces the difference into the kernel of the inverse, which is zero.",
 "C219": "On the numerical models of the two adapters: the map between Gaussians is the only symmetric non-negative matrix turning one covariance into the other (uniqueness of square roots), so it is the inverse of the stretch; for CORAL the product of the two roots is the stretch exactly if the root of the source covariance commutes with it, and what commutes with a matrix commutes with its root (shown in the eigenbasis).",
 "C220": "The distance of two rows does not change when a constant is appended, so kernels of a given bandwidth agree and the theorems behind C174, which hold for any change of representation that keeps the kernel, apply; for the default bandwidth the weight of a new row is computed from the constraints of the problem alone.",
 "C221": "Every assignment into an array casts to the dtype of that array; a cast changes nothing when the array is of floats or the numbers are whole, and each function is shown to be in one of these cases on every branch, including the branches that fill a missing half with mask labels.",
 "C222": "A model of the checks before the conversion to int32, with Python lists and arrays as different arguments; on labels that fit, each function is shown equal to the one used in the other theorems, so those apply.",
 "C223": "The outer call unwraps the nested pipeline; induction on the three sequences shows that unwrapping and wrapping again gives the steps of the single call; counterexamples computed in the model.",
 "C224": "The marginals computed from equal weights are the uniform ones; the rest of both branches is the same. The deep loss is computed for any batch.",
 "C225": "Entropy of a softmax is monotone in the temperature (Gibbs' inequality from ln x <= x - 1), power means are monotone in the power (Bernoulli's inequality), and the two selections are upper sets of the weights.",
 "C226": "The Gaussian is Lipschitz with constant 2 sqrt(gamma) (from exp x >= 1 + x and the triangle inequality), combinations add up, affine maps by Cauchy-Schwarz; nearest-neighbour weights by a witness family indexed by the distance.",
 "C227": "A model of the training loop around the samplers of C60 and C61 with the training step as an oracle; counting of the samples that occur in no batch; the binding of the keyword is_fit to the signature of the split.",
 "C228": "The control-variate estimate is linear in the weighted loss and in the weights, and exact on the weights themselves; the importance weighted score is an average with weights independent of the loss. Counterexamples by computation.",
 "C229": "Objects are trees of named members, selectors are transparent nodes; reading and setting follow the code, the specification is an inductive relation between an object, a path and a value. Induction on the path.",
 "C230": "Covariances are bilinear, the Frobenius norm is invariant under orthogonal matrices, Euclidean distances under motions (C174); the losses are functions of these. Counterexample with a turn of cosine 4/5.",
 "C231": "A coupling with one column is the vector of the source weights, so that averages and class masses are those of C210; invariant of the JDOT loop; the estimated covariance of one sample is 0 for every shrinkage, and so is its square root; entropy bounds of C47.",
 "C232": "The heaviest class is a source class (C52); with one class the label plan is the vector of column masses, constant for uniform target weights, and nothing is below the threshold; invariant of the JDOT loop; class weights and sum constraint of C81; C105 for the error.",
 "C233": "Invariants: every label list on which the classifier is fitted contains only source labels, through the DASVM loop, the gradual steps and the JDOT loop (the fitting data is selected from copies of the source classes); C52 for label propagation; witness of C53 for JCPOT.",
 "C234": "Assignment of the direct names, then one recursive call per further name: specification of both loops by what is found under each name, induction on the length of the longest path; computation for the replacement.",
 "C235": "Two runs of the same loop side by side, by induction on the smaller limit; for KLIEP, an iteration that changes nothing is a fixed point.",
 "C236": "Induction on the loops that yield; the batches of a list are as many as its length divided by their size, rounded up.",
 "C237": "A data set whose tensors belong together is determined by samples, labels, domains and weights; both sides of each equation are computed from C62.",
 "C238": "The shares of the targets in a moved source are non-negative and add up to one, the shares of a target over all sources to the ratio of the numbers; Jensen's inequality for the spread.",
 "C239": "Both evaluations read the same target part; the rest of each scorer is a function of it and of the answers of the model on it.",
 "C240": "The calls of C15 and C16 are read off for one domain; the hidden labels of a domain are its own labels or the mask.",
 "C241": "The middle of a point and the minimiser is feasible, which bounds their distance by the gap of the values; the gap vanishes (C78) and scipy is given the same feasible set (C79).",
 "C242": "k-means: the pair (inertia of the labels with their own centres, sum of the labels) decreases lexicographically, so no labelling repeats and counting them bounds the run. JDOT: a run that goes on gains at least tol per iteration (C178) from a loss that does not depend on the limit (C235).",
 "C243": "KMM: equal weights are feasible, so the minimiser is no worse (C177). Subspace alignment: the projection is nearest in its span. CORAL: after shrinkage the whitened and recoloured covariance is T + s/(1-s) times a difference whose Frobenius norm is controlled through conjugation by the roots. OT: the plan stays a plan, and each barycentre minimises its part of the cost.",
 "C244": "Changing the signs of one group commutes with the covariance, so by uniqueness of the non-negative root it commutes with the root and its inverse, whose entries between groups are therefore zero. Restricting the root to a group gives a root of the restriction.",
 "C245": "OT: exchanging the destinations of two pairs gives another plan, so an optimal one is monotone on its support, and averaging over the support gives the barycentres. Monge: the matrix is positive semidefinite. CORAL: C244 with one feature.",
 "C246": "Equal steps: from the pairs kept by fit. Distances: the largest entry of a row or column of a plan is positive, an optimal plan is monotone on its support (lemma exchange of C245), and the squared distance after t steps is a sum of three terms that are not negative. Refutation: the mask is computed for every two by two plan.",
 "C247": "An optimal plan is monotone on its support (lemma exchange of C245). So the mass of the sources below a source, with the mass of the pair itself, goes to targets up to its target, and the other way round; counting these masses gives the two inequalities, and for equal numbers without ties equal ranks."
}