# Design

Formal model of scikit-adaptation/skada (pinned commit in /repo) in Coq 8.16.1, `rocq/theories`, logical root `Verif`.
This file is assembled by `tools/design.py` from `tools/design_head.md`, `tools/plan.json`, `tools/notes.json`, the theory files and the
output of `Print Assumptions`.

## Approach

Shallow, executable Gallina models, one definition per Python function, mirroring its branches in order;
each definition has a comment citing file and lines, and naming simplifications.

* Exceptions are values: `res A = Ok a | Err e`, `e` an enumerated Python exception class.
* Arrays are lists of rows (`list A`, row type abstract where the code does not inspect it); a boolean mask is
  `list bool`; an integer index array is `list nat` (negative indices modelled explicitly where they can arise).
* Domain labels are `Z`. int32 wrap-around is not modelled.
* Labels `y` are a rational number, `nan` or an infinity; sklearn's `type_of_target` is modelled for 1-D numeric arrays.
* Numerical code is over the standard library's reals `R`; matrices are lists of rows or functions of two indices. Floating-point rounding is not modelled, except in `FloatModel` and `FiniteModel` (C201 to C205), which use Flocq's binary64 rounding (no axioms beyond those below).
* External collaborators (base estimators, kernels, OT solvers, eigensolvers, RNG) are universally quantified function
  parameters, usually `Section` variables closed by `End`, with any contract an explicit hypothesis of the theorem.
  Random draws are arbitrary inputs; a permutation drawn is an arbitrary list with a `Permutation` hypothesis.
* In-place mutation, object identity (deepcopy, shared modules, default arguments) and files on disk are explicit state passing.

File roles: `Np.v`, `Labels.v`, `RVec.v` array library; `*Model.v` models; `*Spec.v` small specifications not using model helpers;
`*Proofs.v`, `*Facts.v` lemmas; `Thm*.v` the theorems with an `Example` beside each; `Assumptions.v` prints the axioms of every theorem.

## Properties that the code violates

Where the faithful model violates a property, the property text is kept as a user would want it; the theorem
is `..._refuted` with a concrete witness, plus the strongest positive statement that does hold.
MANIFEST status is then `partial` and the note says REFUTED. `_partial` marks a theorem that covers part of the statement; the
comment at the theorem and the note say what is missing.

## Trusted base

* Coq 8.16.1 kernel (`coqc`; the compiled files of this development were also checked with `coqchk -o -norec`, which trusts the installed libraries). No plugins, no `native_compute`, no disabled checks.
* Axioms: only those of the standard library, through `Reals` (and classical logic in a few proofs):
  `ClassicalDedekindReals.sig_forall_dec`, `ClassicalDedekindReals.sig_not_dec`,
  `FunctionalExtensionality.functional_extensionality_dep`, `Classical_Prop.classic`. The section "Assumptions per theorem"
  lists what `Print Assumptions` gives for each theorem.
* The correspondence model/Python, which is by reading: nothing in /repo was executed.
* Semantics of the libraries, as stated in the comments of the models:
  * numpy: indexing, boolean masks, `unique`, `concatenate`, broadcasting, `argsort`/`argmax` (first maximum), `repeat`, `random` draws.
  * scikit-learn: `clone`, `get_params`/`set_params`, metadata routing and request defaults (`__metadata_request__*`), `Bunch`,
    `type_of_target`, `check_array` on the shapes used, `KFold`, `StandardScaler`, `PCA`, `ledoit_wolf`, `KernelDensity`, base estimators.
  * scipy / numpy.linalg: `solve`, `eigh`, `svd`, `inv`, `sqrtm`, `cholesky`, `qr`, `multivariate_normal.pdf`, `optimize.minimize`, each an
    oracle with the contract written at the model (for example: orthonormal vectors, singular values independent of numbering).
  * POT (`ot`): `ot.emd`, `ot.emd2`, `ot.dist`, `ot.da.*Transport` as oracles; marginals of a plan as contract where needed.
  * torch: tensors as lists of real rows, `nn.Linear/Conv1d/Conv2d/MaxPool2d/Dropout/Softmax`, losses, forward hooks, `deepcopy` of modules,
    the gradient of `autograd` as the mathematical gradient, L-BFGS as an oracle.
  * skorch: `initialize`, cloning of nets, accepted parameter names, callbacks order, `train_step`/`infer` call order, default `train_split`, `get_split_datasets` passing on the fit parameters, `ValidSplit` and `predefined_split` signatures.
  * file system: a rename is atomic, a download writes in several steps that can be interrupted.

### Modelled parts of /repo/skada

| code | models |
|---|---|
| `utils.py` (splitting, merging, checking; optimisers; torch_minimize) | UtilsModel, Labels, FWModel, SubModel, DomArgModel |
| `_utils.py` | UtilsModel, SelectModel, Sel2Model, CovModel, FetchModel |
| `base.py` | SelectModel, Sel2Model, PipeModel, WrapModel, ChainModel (fitting a pipeline), PredictModel (predicting with one), NestModel (parameters by path) |
| `_pipeline.py` | PipeModel, FactModel |
| `transformers.py`, `model_selection.py`; every use of `random_state` | SplitModel, SeedModel |
| `_reweight.py` | ReweightModel, Rew2Model, TarsModel, CovModel, CtorModel, FactModel |
| `_mapping.py` | MapModel, MongeModel, CoralRegModel, MmdlsModel, CtorModel, FactModel |
| `_subspace.py` | MapModel, SubModel, RotModel, CtorModel, FactModel |
| `_ot.py` | OTModel, UnitModel, CtorModel, WrapModel |
| `_self_labeling.py`, `_gradual_da.py` | SelfModel, CtorModel, WrapModel |
| `metrics.py` | MetricsModel, DevModel, ScorerModel |
| attributes and histories of all shallow classes | HistModel |
| `datasets/_base.py` | DataModel, PackModel, FetchModel, Fetch2Model |
| `datasets/_samples_generator.py` | GenModel |
| `datasets/_office.py`, `_office_home.py`, `_amazon_review.py`, `_mnist_usps.py` | FetchModel, Fetch2Model |
| `deep/base.py` | DeepModel, NetModel, ViewModel, HoldModel |
| `deep/losses.py` | LossModel, AlignModel |
| `deep/_adversarial.py`, `deep/_divergence.py`, `deep/_class_confusion.py`, `deep/_optimal_transport.py`, `deep/_graph_alignment.py`, `deep/_baseline.py` | LossModel, NetModel, AlignModel, BuildModel |
| `deep/callbacks.py`, `deep/utils.py` | CallModel, CanModel, NetModel |
| arguments accepted and never read | ParamModel |
| `deep/modules.py` | NetModel, CallModel, AlignModel, ModuleModel |

### Not modelled

Floating-point rounding and non-finite intermediate values outside `FloatModel` and `FiniteModel`, integer overflow, memory caching (`joblib.Memory`), sparse matrices and DataFrames,
the contents of remote datasets and HTTP, the tests and examples, GPU and device placement, numerics of
optimisers and eigensolvers (oracles), `__repr__`s, logging and warnings except where they are the observable effect, sklearn
metadata-routing internals (its result is an input, or the request tables are modelled in Sel2Model).
