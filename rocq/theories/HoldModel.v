(** Model of the training loop of a deep net: /repo/skada/deep/base.py lines 491-534 (constructor and fit) with the
    parts of skorch they call: NeuralNetClassifier.__init__ (train_split=ValidSplit(5, stratified=True)), fit_loop,
    get_split_datasets, run_single_epoch, helper.predefined_split. Callbacks are not modelled, nor fit_params of the user. *)
From Coq Require Import String List ZArith QArith Bool Arith Lia Reals.
From Verif Require Import Np Labels RVec DeepModel.
Import ListNotations.
Local Open Scope string_scope.
Local Open Scope nat_scope.
Local Open Scope list_scope.

Section Train.
  Variable Row : Type.
  Variable row_ok : Row -> bool.
  (** The parameters of the module and the state of the optimiser. *)
  Variable P : Type.
  (** One training step on a batch (forward with is_fit=True, criterion, get_loss, backward, optimiser), and the
      evaluation of a batch of the validation set, which changes no parameter. Either may raise. *)
  Variable step : P -> list (item Row) -> res P.
  Variable evaluate : P -> list (item Row) -> res unit.

  (** The argument train_split: None or False, or a callable with the keyword arguments it accepts besides the data set. *)
  Inductive split_arg :=
  | NoSplit
  | SplitBy (accepts : string -> bool) (f : ds Row -> res (ds Row * option (ds Row))).
  (** skorch.dataset.ValidSplit.__call__(dataset, y=None, groups=None); DomainAwareNet.fit gives no y (line 534), which a
      stratified split refuses. [cut]: the split by cross-validation. *)
  Definition valid_split (stratified : bool) (cut : ds Row -> res (ds Row * ds Row)) : split_arg :=
    SplitBy (fun k => String.eqb k "y" || String.eqb k "groups")
            (fun d => if stratified then Err ValueError else r <- cut d ;; Ok (fst r, Some (snd r))).
  (** The default of skorch's NeuralNetClassifier, which line 503 leaves in place. *)
  Definition default_split (cut : ds Row -> res (ds Row * ds Row)) : split_arg := valid_split true cut.
  (** skorch.helper.predefined_split(v), whose callable accepts all keyword arguments. *)
  Definition predefined_split (v : ds Row) : split_arg := SplitBy (fun _ => true) (fun d => Ok (d, Some v)).

  (** skorch's NeuralNet.get_split_datasets: the fit_params are passed on as keyword arguments. *)
  Definition get_split_datasets (s : split_arg) (fit_params : list string) (d : ds Row) : res (ds Row * option (ds Row)) :=
    match s with
    | NoSplit => Ok (d, None)
    | SplitBy accepts f => if forallb accepts fit_params then f d else Err TypeError
    end.

  (** The items of a batch given by their positions (DataLoader). *)
  Definition batch_items (d : ds Row) (b : list nat) : res (list (item Row)) := mapM (at_ (items Row d)) b.
  Definition train_on (d : ds Row) (p : P) (b : list nat) : res P := its <- batch_items d b ;; step p its.
  (** skorch's run_single_epoch with iterator_train=DomainBalancedDataLoader (lines 500-502). *)
  Definition train_epoch (d : ds Row) (bs : nat) (mode : sample_mode) (pp pn : nat -> list nat) (p : P) : res P :=
    b <- balanced_batches Row d bs mode pp pn ;; fold_left (fun r c => q <- r ;; train_on d q c) b (Ok p).
  (** ... and with the default iterator_valid, a DataLoader in the order of the samples. *)
  Definition valid_epoch (v : option (ds Row)) (bs : nat) (p : P) : res unit :=
    match v with
    | None => Ok tt
    | Some v => fold_left (fun r c => _ <- r ;; evaluate p c) (chunks bs (items Row v)) (Ok tt)
    end.
  (** skorch's fit_loop; [pp e], [pn e]: the permutations drawn in epoch [e]. *)
  Definition one_epoch (d : ds Row) v bs mode (pp pn : nat -> nat -> list nat) (r : res P) (e : nat) : res P :=
    p <- r ;; q <- train_epoch d bs mode (pp e) (pn e) p ;; _ <- valid_epoch v bs q ;; Ok q.
  (** Lines 504-534: fit_params is is_fit=True. *)
  Definition deep_fit (s : split_arg) (x : net_input Row) (y : option (list val)) (sd : dom_arg) (w : option (list R))
             bs mode pp pn (epochs : nat) (p0 : P) : res P :=
    d <- prepare_input Row row_ok x y sd w ;;
    sp <- get_split_datasets s ["is_fit"] d ;;
    fold_left (one_epoch (fst sp) (snd sp) bs mode pp pn) (seq 0 epochs) (Ok p0).
End Train.
Arguments NoSplit {Row}.
