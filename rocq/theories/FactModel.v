(** Model of the shorthands that build a pipeline of an adapter and an estimator: OTMapping, CORAL, KMMReweight, ...
    (/repo/skada/_mapping.py, _reweight.py, _subspace.py, _ot.py). *)
From Coq Require Import String List ZArith QArith Bool Arith.
From Verif Require Import Np CtorModel.
Import ListNotations.
Local Open Scope nat_scope.
Local Open Scope list_scope.
Local Open Scope string_scope.

(** A shorthand: its parameters with their defaults, the class of the adapter, the arguments it passes on (all by keyword, under the
    same name), and the estimator used when base_estimator is None, with whether it asks for sample weights in fit. *)
Record factory := mkFactory { f_params : dict string (option pv); f_cls : cls; f_passed : list string; f_base : est; f_weights : bool }.

(** The call without the final make_da_pipeline: the adapter and the estimator of the pipeline. Only keyword arguments
    (positional ones are a notation for them). *)
Definition shorthand (f : factory) (args : dict string pv) : res (obj * pv) :=
  let sig := mkCls (f_params f) false (fun a _ => Ok (mkObj a [] (fun _ => None))) in
  s <- construct sig args ;;
  let passed := flat_map (fun p => match o_attr s p with Some v => [(p, v)] | None => [] end) (f_passed f) in
  let base := match o_attr s "base_estimator" with Some PNone | None => PEst (f_base f) | Some v => v end in
  o <- construct (f_cls f) passed ;;
  Ok (o, base).

Definition with_base (ps : dict string (option pv)) := ("base_estimator", None') :: ps.
(** Estimators built by the shorthands: LogisticRegression, SVC, KNeighborsClassifier(n_neighbors=1). *)
Definition knn1 : est := mkEst 1006 None true true.

(** _mapping.py lines 158-193, 255-304, 382-441 (the default estimator is the default argument itself), 480-519, 703-752, 933-973,
    1186-1226. *)
Definition f_ot := mkFactory (with_base [("metric", T "sqeuclidean"); ("norm", None'); ("max_iter", N 100000)])
  (plain ot_params) ["metric"; "norm"; "max_iter"] svc false.
Definition f_entropic := mkFactory (with_base [("metric", T "sqeuclidean"); ("norm", None'); ("max_iter", N 1000); ("reg_e", N 1); ("tol", small 100000000)])
  (plain entropic_params) ["metric"; "norm"; "max_iter"; "reg_e"; "tol"] svc false.
Definition f_class_reg := mkFactory
  [("base_estimator", Some (PEst svc)); ("metric", T "sqeuclidean"); ("norm", T "lpl1"); ("max_iter", N 10); ("max_inner_iter", N 200);
   ("reg_e", N 1); ("reg_cl", small 10); ("tol", small 100000000)]
  (plain class_reg_params) ["metric"; "norm"; "max_iter"; "max_inner_iter"; "reg_e"; "reg_cl"; "tol"] svc false.
Definition f_linear := mkFactory (with_base [("reg", N 1); ("bias", Some (PBool true))]) (plain linear_ot_params) ["reg"; "bias"] svc false.
Definition f_mlm := mkFactory (with_base [("reg", small 100000000); ("bias", Some (PBool true)); ("test_time", F)])
  (plain mlm_params) ["reg"; "bias"; "test_time"] logistic false.
Definition f_coral := mkFactory (with_base [("reg", T "auto"); ("assume_centered", F)]) (plain coral_params) ["reg"; "assume_centered"] svc false.
Definition f_mmdls := mkFactory (with_base [("gamma", N 1); ("reg_k", small 10000000000); ("reg_m", small 10000000000); ("tol", small 100000); ("max_iter", N 100)])
  (plain mmdls_params) ["gamma"; "reg_k"; "reg_m"; "tol"; "max_iter"] svc false.
(** _reweight.py lines 148-173, 256-295, 367-398, 582-640, 821-949, 1128-1199, 1365-1405. *)
Definition f_density := mkFactory (with_base [("weight_estimator", None')]) density_cls ["weight_estimator"] logistic true.
Definition f_gaussian := mkFactory (with_base [("reg", T "auto")]) (plain gaussian_params) ["reg"] logistic true.
Definition f_discriminator := mkFactory (with_base [("domain_classifier", None')]) discriminator_cls ["domain_classifier"] logistic true.
Definition f_kliep := mkFactory
  (with_base [("gamma", N 1); ("cv", N 5); ("n_centers", N 100); ("tol", small 1000000); ("max_iter", N 1000); ("random_state", None')])
  (plain kliep_params) ["gamma"; "cv"; "n_centers"; "tol"; "max_iter"; "random_state"] logistic true.
Definition f_nn := mkFactory
  (with_base [("n_neighbors", N 1); ("weights", T "uniform"); ("algorithm", T "auto"); ("leaf_size", N 30); ("p", N 2);
    ("metric", T "minkowski"); ("metric_params", None'); ("n_jobs", None'); ("laplace_smoothing", F)])
  nn_cls ["n_neighbors"; "weights"; "algorithm"; "leaf_size"; "p"; "metric"; "metric_params"; "n_jobs"; "laplace_smoothing"] logistic true.
Definition f_kmm := mkFactory
  (with_base [("kernel", T "rbf"); ("gamma", None'); ("degree", N 3); ("coef0", N 1); ("B", N 1000); ("eps", None'); ("tol", small 1000000);
    ("max_iter", N 1000); ("smooth_weights", F); ("solver", T "frank-wolfe")])
  kmm_cls ["kernel"; "gamma"; "degree"; "coef0"; "B"; "eps"; "tol"; "max_iter"; "smooth_weights"; "solver"] logistic true.
Definition f_mmdtars := mkFactory (with_base [("gamma", N 1); ("reg", small 10000000000); ("tol", small 1000000); ("max_iter", N 1000)])
  (plain mmdtars_params) ["gamma"; "reg"; "tol"; "max_iter"] svc true.
(** _subspace.py lines 169-211, 374-414, 643-696 (verbose is not a parameter), 956-1026. *)
Definition f_sa := mkFactory (with_base [("n_components", None'); ("random_state", None')]) (plain sa_params) ["n_components"; "random_state"] svc false.
Definition f_tca := mkFactory (with_base [("kernel", T "rbf"); ("n_components", None'); ("mu", small 10)]) (plain tca_params) ["kernel"; "n_components"; "mu"] svc false.
Definition f_tjm := mkFactory
  (with_base [("n_components", None'); ("tradeoff", small 100); ("kernel", T "rbf"); ("max_iter", N 100); ("tol", small 100)])
  (plain tjm_params) ["tradeoff"; "n_components"; "kernel"; "max_iter"; "tol"] svc false.
Definition f_tsl := mkFactory
  (with_base [("n_components", None'); ("base_method", T "flda"); ("length_scale", N 2); ("mu", small 10); ("reg", small 100);
    ("max_iter", N 100); ("tol", small 100); ("verbose", F)])
  tsl_cls ["n_components"; "base_method"; "length_scale"; "mu"; "reg"; "max_iter"; "tol"; "verbose"] knn1 false.
(** _ot.py lines 860-902, 987-1042. *)
Definition f_otlp := mkFactory (with_base [("reg", N 0); ("metric", T "sqeuclidean"); ("n_iter_max", N 200)])
  (plain otlabelprop_params) ["reg"; "metric"; "n_iter_max"] svc true.
Definition f_jcpot := mkFactory (with_base [("reg", N 1); ("metric", T "sqeuclidean"); ("max_iter", N 10); ("tol", small 1000000000); ("verbose", F)])
  (plain jcpot_params) ["reg"; "metric"; "max_iter"; "tol"; "verbose"] logistic false.

Definition factories : list (string * factory) :=
  [("OTMapping", f_ot); ("EntropicOTMapping", f_entropic); ("ClassRegularizerOTMapping", f_class_reg); ("LinearOTMapping", f_linear);
   ("MultiLinearMongeAlignment", f_mlm); ("CORAL", f_coral); ("MMDLSConSMapping", f_mmdls); ("DensityReweight", f_density);
   ("GaussianReweight", f_gaussian); ("DiscriminatorReweight", f_discriminator); ("KLIEPReweight", f_kliep);
   ("NearestNeighborReweight", f_nn); ("KMMReweight", f_kmm); ("MMDTarSReweight", f_mmdtars); ("SubspaceAlignment", f_sa);
   ("TransferComponentAnalysis", f_tca); ("TransferJointMatching", f_tjm); ("TransferSubspaceLearning", f_tsl);
   ("OTLabelProp", f_otlp); ("JCPOTLabelProp", f_jcpot)].
