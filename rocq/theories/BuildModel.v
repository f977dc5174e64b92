(** Model of the functions of skada.deep that build nets, as seen by a caller: which arguments they take, where they put them, and the
    training loss of the net built (/repo/skada/deep/_adversarial.py, _baseline.py, _class_confusion.py, _divergence.py,
    _graph_alignment.py, _optimal_transport.py and DomainAwareCriterion in base.py). *)
From Coq Require Import String List ZArith QArith Bool Arith Lia Reals Lra.
From Verif Require Import Np Labels RVec LossModel DeepModel CallModel AlignModel.
Import ListNotations.
Local Open Scope nat_scope.
Local Open Scope list_scope.

(** ** Passing arguments *)

Inductive method := MDANN | MCDAN | MMDD | MDeepCoral | MDAN | MCAN | MDeepJDOT | MMCC | MSPA | MSourceOnly | MTargetOnly.

Definition mem (s : string) (l : list string) : bool := existsb (String.eqb s) l.

(** The parameters without a default value. *)
Definition required (m : method) : list string :=
  match m with MSourceOnly | MTargetOnly => ["module"]%string | _ => ["module"; "layer_name"]%string end.
(** _adversarial.py lines 78-87, 292-303, 474-484; _divergence.py lines 58-60, 140, 248-258; _optimal_transport.py lines 72-80;
    _class_confusion.py lines 57-64; _graph_alignment.py lines 138-151; _baseline.py lines 35 and 72. *)
Definition signature (m : method) : list string :=
  match m with
  | MDANN => ["module"; "layer_name"; "reg"; "domain_classifier"; "num_features"; "base_criterion"; "domain_criterion"]
  | MCDAN => ["module"; "layer_name"; "reg"; "max_features"; "domain_classifier"; "num_features"; "n_classes"; "base_criterion"; "domain_criterion"]
  | MMDD => ["module"; "layer_name"; "reg"; "gamma"; "disc_classifier"; "num_features"; "n_classes"; "base_criterion"]
  | MDeepCoral => ["module"; "layer_name"; "reg"; "assume_centered"; "base_criterion"]
  | MDAN => ["module"; "layer_name"; "reg"; "sigmas"; "base_criterion"]
  | MCAN => ["module"; "layer_name"; "reg"; "distance_threshold"; "class_threshold"; "sigmas"; "base_criterion"; "callbacks"]
  | MDeepJDOT => ["module"; "layer_name"; "reg_dist"; "reg_cl"; "base_criterion"; "target_criterion"]
  | MMCC => ["module"; "layer_name"; "reg"; "T"; "base_criterion"]
  | MSPA => ["module"; "layer_name"; "reg_adv"; "reg_gsa"; "reg_nap"; "domain_classifier"; "num_features"; "base_criterion"; "domain_criterion"; "callbacks"; "max_epochs"]
  | MSourceOnly | MTargetOnly => ["module"; "layer_name"; "base_criterion"]
  end%string.
(** The keyword arguments the function itself gives to DomainAwareNet: _adversarial.py lines 136-147, 360-372, 539-552; _divergence.py
    lines 89-99, 169-179, 304-319; _optimal_transport.py lines 115-125; _class_confusion.py lines 93-103; _graph_alignment.py lines
    218-237; _baseline.py lines 57-68 and 94-106. *)
Definition passed_common : list string :=
  ["module"; "module__base_module"; "module__layer_name"; "iterator_train"; "criterion"; "criterion__base_criterion"; "criterion__reg"; "criterion__adapt_criterion"]%string.
Definition passed (m : method) : list string :=
  passed_common ++
  match m with
  | MDANN | MMDD => ["module__domain_classifier"]
  | MCDAN => ["module__domain_classifier"; "module__max_features"]
  | MDeepCoral | MDAN | MDeepJDOT | MMCC => []
  | MCAN => ["callbacks"]
  | MSPA => ["module__domain_classifier"; "callbacks"; "max_epochs"]
  | MSourceOnly => ["iterator_train__domain_used"]
  | MTargetOnly => ["iterator_train__domain_used"; "criterion__train_on_target"]
  end%string.

(** skorch (trusted base): the parameters of NeuralNetClassifier and the prefixes of the names it accepts besides them. Other names are
    refused with TypeError, by initialize() (simplification: here when the net is built). *)
Definition skorch_params : list string :=
  ["module"; "criterion"; "train_split"; "classes"; "optimizer"; "lr"; "max_epochs"; "batch_size"; "iterator_train"; "iterator_valid"; "dataset";
   "callbacks"; "predict_nonlinearity"; "warm_start"; "verbose"; "device"; "compile"; "use_caching"; "torch_load_kwargs"]%string.
Definition skorch_prefixes : list string :=
  ["module__"; "criterion__"; "optimizer__"; "iterator_train__"; "iterator_valid__"; "dataset__"; "callbacks__"; "compile__"]%string.
Definition skorch_accepts (s : string) : bool := mem s skorch_params || existsb (fun p => String.prefix p s) skorch_prefixes.

(** A call with the given keyword arguments: Python's binding of arguments, then the call DomainAwareNet(..., **kwargs). Only the names
    matter here; the keywords of a call are distinct (syntax). *)
Definition call_names (m : method) (names : list string) : res unit :=
  if negb (forallb (fun r => mem r names) (required m)) then Err TypeError else
  let extra := filter (fun s => negb (mem s (signature m))) names in
  if existsb (fun s => mem s (passed m)) extra then Err TypeError else
  if negb (forallb skorch_accepts extra) then Err TypeError else Ok tt.

(** A torch module or criterion given as an argument: None, an instance, or a class (given by what its instances do). *)
Inductive given (A : Type) := GNone | GInstance (a : A) | GClass (a : A).
Arguments GNone {A}. Arguments GInstance {A} a. Arguments GClass {A} a.

(** base.py lines 405-416 with utils.py line 32: module.named_modules() of a class lacks its argument self. The value: the module
    used. skorch does not instantiate parameters of the module. *)
Definition use_module {A} (g : given A) : res A :=
  match g with GNone => Err AttributeError | GInstance a => Ok a | GClass _ => Err TypeError end.
(** Calling a criterion, base.py lines 127-130. A class is instantiated with the predictions as weights and the labels as
    size_average: torch evaluates the labels as a condition (RuntimeError unless there is exactly one), and adding the new
    module to a tensor raises TypeError. *)
Definition call_criterion {A B C} (default : A -> list B -> res C) (g : given (A -> list B -> res C)) (pred : A) (labels : list B) : res C :=
  match g with
  | GNone => default pred labels
  | GInstance f => f pred labels
  | GClass _ => if length labels =? 1 then Err TypeError else Err RuntimeError
  end.

(** ** The training loss *)

(** Labels as classes: CrossEntropyLoss wants integers; here the label must be a natural number. *)
Definition class_of (v : val) : res nat :=
  match v with VNum q => if (Qden q =? 1)%positive && (0 <=? Qnum q)%Z then Ok (Z.to_nat (Qnum q)) else Err RuntimeError | _ => Err RuntimeError end.
(** torch.nn.CrossEntropyLoss() with reduction="mean"; the mean of no samples is not a number, here refused (simplification). *)
Definition ce_default (pred : list (list R)) (labels : list val) : res tensor :=
  k <- mapM class_of labels ;;
  if length k =? 0 then Err ValueError else r <- cross_entropy_mean pred k ;; Ok (Scalar r).

(** A tensor of predictions of a domain classifier with one output has one dimension (modules.py line 196); rows of another length are
    refused by the default criterion. *)
Definition one_column (p : list (list R)) : res (list R) := mapM (fun r => match r with [x] => Ok x | _ => Err ValueError end) p.

(** The objects given as criterion__adapt_criterion, with their attributes. [nap]: the value of nap_loss on the batch (see CallModel). *)
Inductive adapt :=
| ADomain (criterion : given (list R -> list R -> res R))
| AMdd (gamma smoothing : R)
| ACoral (assume_centered : bool)
| ADan (sigmas : option (list R)) (eps : R)
| ACan (distance_threshold : R) (class_threshold : nat) (sigmas : option (list R)) (eps : R)
| AJdot (reg_dist reg_cl : R) (criterion : option (list R -> val -> res R))
| AMcc (T eps : R)
| ASpa (reg_adv reg_gsa reg_nap : R) (max_epochs K : nat) (criterion : given (list R -> list R -> res R))
| ADummy.

(** An argument that must not be None: operations on None raise TypeError or AttributeError. *)
Definition need {A} (o : option A) : res A := match o with Some a => Ok a | None => Err AttributeError end.

Section Loss.
  (** What the callbacks put into the criterion: the fitted k-means (CAN) and the number of the epoch (SPA); singular values; emd2. *)
  Variable kmeans : option (list (list R) * (list R -> nat)).
  Variable n_epochs : nat.
  Variable sv : nat -> (nat -> nat -> R) -> list R.
  Variable emd2 : list R -> list R -> list (list R) -> res R.
  (** losses.py lines 481-515: features_t, y_pred_t, sample_idx_t, K (the banks are fixed during a batch). *)
  Variable nap : nat -> list (list R) -> list (list R) -> list nat -> res R.

  (** Default of DeepJDOT, losses.py lines 110-111. *)
  Definition jdot_default (p : list R) (v : val) : res R := k <- class_of v ;; cross_entropy p k.

  (** The forward methods: _adversarial.py lines 54-75, 180-203 (the numbers of samples of domain_pred and features are the same),
      451-471; _divergence.py lines 47-55, 129-137, 227-245; _optimal_transport.py lines 51-69; _class_confusion.py lines 43-54;
      _graph_alignment.py lines 88-135; _baseline.py lines 27-32. [MDD]: a loss that is not a finite number is an error here
      (simplification). *)
  Definition adapt_forward (a : adapt) (ys : list val) (ps pt : list (list R)) (ds dt fs ft : option (list (list R))) (is_ it : option (list nat)) : res R :=
    match a with
    | ADomain c =>
        d <- need ds ;; e <- need dt ;;
        u <- one_column d ;; v <- one_column e ;;
        dann_loss (call_criterion bce_loss c) u v
    | AMdd gamma smoothing =>
        d <- need ds ;; e <- need dt ;;
        r <- mdd_loss gamma smoothing ps pt d e ;;
        match r with Some x => Ok x | None => Err RuntimeError end
    | ACoral centred => f <- need fs ;; g <- need ft ;; Ok (deepcoral_loss f g centred)
    | ADan sigmas eps => f <- need fs ;; g <- need ft ;; Ok (dan_loss f g sigmas eps)
    | ACan dt_ ct sigmas eps =>
        f <- need fs ;; g <- need ft ;;
        k <- mapM class_of ys ;;
        cdd_loss k f g kmeans sigmas dt_ ct eps
    | AJdot reg_dist reg_cl c =>
        f <- need fs ;; g <- need ft ;;
        deepjdot_loss val (match c with Some c => c | None => jdot_default end) emd2 ys pt f g reg_dist reg_cl None None
    | AMcc T eps => Ok (mcc_loss pt T eps)
    | ASpa ra rg rn max_epochs K c =>
        d <- need ds ;; e <- need dt ;; f <- need fs ;; g <- need ft ;; i <- need it ;;
        u <- one_column d ;; v <- one_column e ;;
        spa_loss sv (call_criterion bce_loss c) (nap K g pt i) ra rg rn n_epochs max_epochs u v f g
    | ADummy => Ok 0%R
    end.

  (** What a net knows about its loss. *)
  Record cfg := mkCfg { g_base : given (list (list R) -> list val -> res tensor); g_reg : R; g_target : bool; g_adapt : adapt }.
  (** base.py lines 82-143. *)
  Definition training_loss (c : cfg) (y_pred : list (list R)) (domain_pred features : option (list (list R))) (sd : list Z)
             (idx : option (list nat)) (y_true : list val) : res tensor :=
    criterion_forward (list R) (list R) (list R) (call_criterion ce_default (g_base c)) (adapt_forward (g_adapt c)) (g_reg c) (g_target c)
                      y_pred domain_pred features sd idx y_true.
End Loss.

(** An optional argument left out, and its default. *)
Definition default {A} (d : A) (o : option A) : A := match o with Some a => a | None => d end.

Definition base_arg := given (list (list R) -> list val -> res tensor).
(** _adversarial.py lines 78-148. *)
Definition DANN (reg : option R) (base : base_arg) (domain_criterion : given (list R -> list R -> res R)) : cfg :=
  mkCfg base (default 1%R reg) false (ADomain domain_criterion).
(** Lines 292-373. *)
Definition CDAN (reg : option R) (base : base_arg) (domain_criterion : given (list R -> list R -> res R)) : cfg :=
  mkCfg base (default 1%R reg) false (ADomain domain_criterion).
(** Lines 474-553; lines 385 and 449: smoothing is 0.1. *)
Definition MDD (reg gamma : option R) (base : base_arg) : cfg :=
  mkCfg base (default 1%R reg) false (AMdd (default 4%R gamma) (1 / 10)%R).
(** _divergence.py lines 58-100. *)
Definition DeepCoral (reg : option R) (assume_centered : option bool) (base : base_arg) : cfg :=
  mkCfg base (default 1%R reg) false (ACoral (default false assume_centered)).
(** Lines 140-180; line 124: eps. *)
Definition DAN (reg : option R) (sigmas : option (list R)) (base : base_arg) : cfg :=
  mkCfg base (default 1%R reg) false (ADan sigmas (1 / 10 ^ 7)%R).
(** Lines 248-320; line 218: eps. *)
Definition CAN (reg distance_threshold : option R) (class_threshold : option nat) (sigmas : option (list R)) (base : base_arg) : cfg :=
  mkCfg base (default 1%R reg) false (ACan (default (1 / 2)%R distance_threshold) (default 3 class_threshold) sigmas (1 / 10 ^ 7)%R).
(** _optimal_transport.py lines 72-126; line 45: the order of the arguments of DeepJDOTLoss. *)
Definition DeepJDOT (reg_dist reg_cl : option R) (base : base_arg) (target_criterion : option (list R -> val -> res R)) : cfg :=
  mkCfg base 1%R false (AJdot (default 1%R reg_dist) (default 1%R reg_cl) target_criterion).
(** _class_confusion.py lines 57-104; line 38: eps. *)
Definition MCC (reg T : option R) (base : base_arg) : cfg :=
  mkCfg base (default 1%R reg) false (AMcc (default 1%R T) (1 / 10 ^ 7)%R).
(** _graph_alignment.py lines 138-238; line 56: K. *)
Definition SPA (reg_adv reg_gsa reg_nap : option R) (base : base_arg) (domain_criterion : given (list R -> list R -> res R)) (max_epochs : option nat) : cfg :=
  mkCfg base 1%R false (ASpa (default 1%R reg_adv) (default 1%R reg_gsa) (default 1%R reg_nap) (default 100 max_epochs) 5 domain_criterion).
(** _baseline.py lines 35-69 and 72-107. *)
Definition SourceOnly (base : base_arg) : cfg := mkCfg base 0%R false ADummy.
Definition TargetOnly (base : base_arg) : cfg := mkCfg base 0%R true ADummy.
