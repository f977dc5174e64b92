(** Specification vocabulary for C166 and C167: what the documentation of the deep methods says about their arguments. *)
From Coq Require Import String List ZArith QArith Bool Arith Lia Reals Lra.
From Verif Require Import Np Labels RVec LossModel DeepModel BuildModel.
Import ListNotations.
Local Open Scope nat_scope.
Local Open Scope list_scope.

(** The sections "Parameters" of the docstrings. *)
Definition documented (m : method) : list string :=
  match m with
  | MDANN => ["module"; "layer_name"; "reg"; "domain_classifier"; "num_features"; "base_criterion"; "domain_criterion"]
  | MCDAN => ["module"; "layer_name"; "reg"; "max_features"; "domain_classifier"; "num_features"; "n_classes"; "base_criterion"; "domain_criterion"]
  | MMDD => ["module"; "layer_name"; "reg"; "disc_classifier"; "num_features"; "n_classes"; "base_criterion"; "gamma"]
  | MDeepCoral => ["module"; "layer_name"; "reg"; "assume_centered"; "base_criterion"]
  | MDAN => ["module"; "layer_name"; "reg"; "sigmas"; "base_criterion"]
  | MCAN => ["module"; "layer_name"; "reg"; "distance_threshold"; "class_threshold"; "sigmas"; "base_criterion"; "callbacks"]
  | MDeepJDOT => ["module"; "layer_name"; "reg"; "reg_cl"; "base_criterion"; "target_criterion"]
  | MMCC => ["module"; "layer_name"; "reg"; "T"; "base_criterion"]
  | MSPA => ["module"; "layer_name"; "reg"; "domain_classifier"; "num_features"; "base_criterion"; "domain_criterion"; "callbacks"; "max_epochs"]
  | MSourceOnly | MTargetOnly => ["module"; "layer_name"; "base_criterion"]
  end%string.

(** The parameters not marked optional: the module and, but for the baselines, the layer. *)
Definition needed (m : method) (s : string) : Prop :=
  s = "module"%string \/ (s = "layer_name"%string /\ m <> MSourceOnly /\ m <> MTargetOnly).
(** Parameters of the functions their docstrings do not list. *)
Definition unlisted (m : method) : list string :=
  match m with MDeepJDOT => ["reg_dist"] | MSPA => ["reg_adv"; "reg_gsa"; "reg_nap"] | _ => [] end%string.

(** Training options of skorch that no method sets itself. *)
Definition training_options : list string := ["optimizer"; "lr"; "batch_size"; "iterator_valid"; "train_split"; "device"; "verbose"; "warm_start"; "predict_nonlinearity"]%string.

(** The criterion a caller gets by giving None or an instance. *)
Definition is_class {A} (g : given A) : bool := match g with GClass _ => true | _ => false end.
Definition chosen {A} (d : A) (g : given A) : A := match g with GInstance f => f | _ => d end.

(** A loss plus a number. *)
Definition plus_number (t : tensor) (r : R) : tensor := match t with Scalar s => Scalar (s + r)%R | Vec l => Vec (map (fun s => s + r)%R l) end.
(** base + reg * adaptation, when both can be computed. *)
Definition combined (base : res tensor) (reg : R) (adaptation : res R) : res tensor := b <- base ;; a <- adaptation ;; Ok (plus_number b (reg * a)%R).
