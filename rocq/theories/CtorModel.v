(** Model of the constructors of skada's estimators and of their life under sklearn's parameter protocol (get_params,
    set_params, clone): /repo/skada/_reweight.py, _ot.py, _self_labeling.py, _subspace.py, _mapping.py, _gradual_da.py. *)
From Coq Require Import String List ZArith QArith Bool Arith Lia.
From Verif Require Import Np.
Import ListNotations.
Local Open Scope nat_scope.
Local Open Scope list_scope.

(** ** Values *)
(** An estimator given as an argument: what identifies it; [len(.)] when its class defines [__len__] (sklearn's ensembles
    define it as the number of fitted members, an AttributeError before fit; pipelines as their number of steps); whether it
    has the methods fit and predict. *)
Record est := mkEst { e_id : nat; e_len : option (res nat); e_fit : bool; e_predict : bool }.
Inductive pv := PNone | PNum (q : Q) | PText (s : string) | PBool (b : bool) | PEst (e : est).

(** [bool(x)] of an argument that is None or an estimator: [__len__] decides when there is one. *)
Definition truth (v : pv) : res bool :=
  match v with
  | PNone => Ok false
  | PNum q => Ok (negb (Qeq_bool q 0))
  | PText s => Ok (negb (String.eqb s ""))
  | PBool b => Ok b
  | PEst e => match e_len e with None => Ok true | Some (Ok n) => Ok (0 <? n) | Some (Err x) => Err x end
  end.
(** [a or b] *)
Definition py_or (a b : pv) : res pv := t <- truth a ;; Ok (if t then a else b).

(** ** Objects and classes *)
(** The attributes an estimator's parameters are read from and written to; [o_kwargs]: extra keyword arguments the constructor
    stored; [o_inner]: the parameters of an estimator the constructor built and stored. *)
Definition attrs := string -> option pv.
Record obj := mkObj { o_attr : attrs; o_kwargs : dict string pv; o_inner : attrs }.
Definition upd (a : attrs) (k : string) (v : pv) : attrs := fun x => if String.eqb x k then Some v else a x.

(** A class: its constructor's named parameters with their defaults ([None]: required), whether it takes **kwargs, and the
    constructor's body, given all named parameters and the extra keyword arguments. *)
Record cls := mkCls { c_params : dict string (option pv); c_varkw : bool; c_init : attrs -> dict string pv -> res obj }.
Definition names (C : cls) : list string := map fst (c_params C).
Definition has_name (C : cls) (k : string) : bool := existsb (String.eqb k) (names C).

(** Python's binding of keyword arguments (positional ones are a notation for them). *)
Definition bind_args (C : cls) (args : dict string pv) : res attrs :=
  if forallb (fun p => match snd p, dict_get String.eqb (fst p) args with None, None => false | _, _ => true end) (c_params C)
  then Ok (fun k => match dict_get String.eqb k args with
                    | Some v => if has_name C k then Some v else None
                    | None => match dict_get String.eqb k (c_params C) with Some d => d | None => None end
                    end)
  else Err TypeError.
Definition construct (C : cls) (args : dict string pv) : res obj :=
  let extra := filter (fun kv => negb (has_name C (fst kv))) args in
  match extra with
  | _ :: _ => if c_varkw C then a <- bind_args C args ;; c_init C a extra else Err TypeError
  | [] => a <- bind_args C args ;; c_init C a []
  end.

(** sklearn's BaseEstimator (external): [get_params] reads one attribute per named parameter (extra keyword arguments are skipped),
    [set_params] writes them, refusing other names with ValueError; [clone] calls the constructor with what get_params gives
    and raises RuntimeError if a parameter of the new object is not the one it was given. Nested names (a__b) are left out. *)
Fixpoint get_params_list (a : attrs) (ns : list string) : res (dict string pv) :=
  match ns with
  | [] => Ok []
  | n :: ns' => match a n with
                | None => Err AttributeError
                | Some v => r <- get_params_list a ns' ;; Ok ((n, v) :: r)
                end
  end.
Definition get_params (C : cls) (o : obj) : res (dict string pv) := get_params_list (o_attr o) (names C).
Fixpoint set_params (C : cls) (o : obj) (kv : dict string pv) : res obj :=
  match kv with
  | [] => Ok o
  | (k, v) :: kv' => if has_name C k then set_params C (mkObj (upd (o_attr o) k v) (o_kwargs o) (o_inner o)) kv' else Err ValueError
  end.
Definition pv_same (a b : pv) : bool :=
  match a, b with
  | PNone, PNone => true
  | PNum p, PNum q => Qeq_bool p q
  | PText s, PText t => String.eqb s t
  | PBool x, PBool y => Bool.eqb x y
  | PEst e, PEst f => e_id e =? e_id f
  | _, _ => false
  end.
Definition clone (C : cls) (o : obj) : res obj :=
  g <- get_params C o ;;
  o' <- construct C g ;;
  if forallb (fun kv => match o_attr o' (fst kv) with Some v => pv_same (snd kv) v | None => false end) g
  then Ok o' else Err RuntimeError.

(** ** The constructors *)
(** Constructors that store every argument under its own name and do nothing else. *)
Definition plain (ps : dict string (option pv)) : cls := mkCls ps false (fun a kw => Ok (mkObj a [] (fun _ => None))).

Definition N (z : Z) : option pv := Some (PNum (inject_Z z)).
Definition T (s : string) : option pv := Some (PText s).
Definition None' : option pv := Some PNone.
Definition F : option pv := Some (PBool false).
Definition small (d : positive) : option pv := Some (PNum (1 # d)).
Local Open Scope string_scope.

(** _reweight.py lines 209-211, 447-462, 1242-1247. *)
Definition gaussian_params := [("reg", T "auto")].
Definition kliep_params := [("gamma", None); ("cv", N 5); ("n_centers", N 100); ("tol", small 1000000); ("max_iter", N 1000); ("random_state", None')].
Definition mmdtars_params := [("gamma", None); ("reg", small 10000000000); ("tol", small 1000000); ("max_iter", N 1000)].
(** _mapping.py lines 139-148, 230-243, 346-363, 471-474, 598-602, 840-843, 1020-1028 (the last also clears two fitted attributes). *)
Definition ot_params := [("metric", T "sqeuclidean"); ("norm", None'); ("max_iter", N 100000)].
Definition entropic_params := [("reg_e", N 1); ("metric", T "sqeuclidean"); ("norm", None'); ("max_iter", N 1000); ("tol", small 100000000)].
Definition class_reg_params := [("reg_e", N 1); ("reg_cl", small 10); ("norm", T "lpl1"); ("metric", T "sqeuclidean"); ("max_iter", N 10);
  ("max_inner_iter", N 200); ("tol", small 100000000)].
Definition linear_ot_params := [("reg", small 100000000); ("bias", Some (PBool true))].
Definition mlm_params := [("reg", small 100000000); ("bias", Some (PBool true)); ("test_time", F)].
Definition coral_params := [("reg", T "auto"); ("assume_centered", F)].
Definition mmdls_params := [("gamma", None); ("reg_k", small 10000000000); ("reg_m", small 10000000000); ("tol", small 100000); ("max_iter", N 100)].
(** _subspace.py lines 61-68, 251-255, 456-471; _ot.py lines 805-809, 937-947. *)
Definition sa_params := [("n_components", None'); ("random_state", None')].
Definition tca_params := [("kernel", T "rbf"); ("n_components", None'); ("mu", small 10)].
Definition tjm_params := [("n_components", None'); ("tradeoff", small 100); ("max_iter", N 100); ("kernel", T "rbf"); ("tol", small 100); ("verbose", F)].
Definition otlabelprop_params := [("metric", T "sqeuclidean"); ("reg", None'); ("n_iter_max", N 200)].
Definition jcpot_params := [("metric", T "sqeuclidean"); ("reg", N 1); ("max_iter", N 10); ("tol", small 1000000000); ("verbose", F)].
Definition plain_adapters : list (dict string (option pv)) :=
  [gaussian_params; kliep_params; mmdtars_params; ot_params; entropic_params; class_reg_params; linear_ot_params;
   mlm_params; coral_params; sa_params; tca_params; tjm_params; otlabelprop_params; mmdls_params; jcpot_params].

(** KMMReweightAdapter, _reweight.py lines 1000-1030: the kernel must be one of sklearn's (KERNEL_PARAMS, external). *)
Definition kernel_names := ["additive_chi2"; "chi2"; "cosine"; "linear"; "poly"; "polynomial"; "rbf"; "laplacian"; "sigmoid"].
Definition kmm_params := [("kernel", T "rbf"); ("gamma", None'); ("degree", N 3); ("coef0", N 1); ("B", N 1000); ("eps", None');
  ("tol", small 1000000); ("max_iter", N 1000); ("smooth_weights", F); ("solver", T "frank-wolfe")].
Definition kmm_cls : cls := mkCls kmm_params false
  (fun a kw => match a "kernel" with
               | Some (PText s) => if existsb (String.eqb s) kernel_names then Ok (mkObj a [] (fun _ => None)) else Err ValueError
               | _ => Err ValueError
               end).

(** NearestNeighborReweightAdapter, _reweight.py lines 734-765: the classifier that fit clones (lines 786, 793, 811) is built by
    the constructor from eight of the nine parameters. *)
Definition knn_names := ["n_neighbors"; "weights"; "algorithm"; "leaf_size"; "p"; "metric"; "metric_params"; "n_jobs"].
Definition nn_cls : cls := mkCls
  [("n_neighbors", N 1); ("weights", T "uniform"); ("algorithm", T "auto"); ("leaf_size", N 30); ("p", N 2); ("metric", T "minkowski");
   ("metric_params", None'); ("n_jobs", None'); ("laplace_smoothing", F)] false
  (fun a kw => Ok (mkObj a [] (fun k => if existsb (String.eqb k) knn_names then a k else None))).
(** What fit and compute_weights use: the parameters of the classifier, and laplace_smoothing (line 797). *)
Definition nn_used (o : obj) (k : string) : option pv := if String.eqb k "laplace_smoothing" then o_attr o k else o_inner o k.

(** DensityReweightAdapter, lines 96-98; DiscriminatorReweightAdapter, lines 320-322. *)
Definition kernel_density : est := mkEst 1001 None true false.
Definition logistic : est := mkEst 1002 None true true.
Definition or_cls (name : string) (default : est) : cls := mkCls [(name, None')] false
  (fun a kw => match a name with
               | Some v => w <- py_or v (PEst default) ;; Ok (mkObj (upd a name w) [] (fun _ => None))
               | None => Err TypeError
               end).
Definition density_cls := or_cls "weight_estimator" kernel_density.
Definition discriminator_cls := or_cls "domain_classifier" logistic.

(** JDOTRegressor, _ot.py lines 548-571, and JDOTClassifier, lines 672-699: extra keyword arguments are stored in
    [self.kwargs] and given to the base estimator's fit (lines 284-313, 469). *)
Definition jdot_init (default : est) (a : attrs) (kw : dict string pv) : res obj :=
  match a "base_estimator" with
  | Some PNone => Ok (mkObj (upd a "base_estimator" (PEst default)) kw (fun _ => None))
  | Some (PEst e) => if e_fit e && e_predict e then Ok (mkObj a kw (fun _ => None)) else Err ValueError
  | Some _ => Err ValueError
  | None => Err TypeError
  end.
Definition linear_regression : est := mkEst 1003 None true true.
Definition jdot_reg_cls : cls := mkCls
  [("base_estimator", None'); ("alpha", Some (PNum (1 # 2))); ("n_iter_max", N 100); ("tol", small 100000); ("verbose", F)] true
  (jdot_init linear_regression).
Definition jdot_clf_cls : cls := mkCls
  [("base_estimator", None'); ("alpha", Some (PNum (1 # 2))); ("metric", T "multinomial"); ("n_iter_max", N 100); ("tol", small 100000);
   ("verbose", F); ("thr_weights", small 1000000)] true
  (jdot_init logistic).

(** DASVMClassifier, _self_labeling.py lines 70-87: **kwargs is accepted and dropped. *)
Definition svc : est := mkEst 1004 None true true.
Definition dasvm_cls : cls := mkCls
  [("base_estimator", None'); ("k", N 3); ("max_iter", N 1000); ("save_estimators", F); ("save_indices", F)] true
  (fun a kw => match a "base_estimator" with
               | Some PNone => Ok (mkObj (upd a "base_estimator" (PEst svc)) [] (fun _ => None))
               | _ => Ok (mkObj a [] (fun _ => None))
               end).

(** TransferSubspaceLearningAdapter, _subspace.py lines 747-771; a comparison of reg with 0 needs a number. *)
Definition tsl_init (a : attrs) (kw : dict string pv) : res obj :=
  match a "base_method" with
  | Some (PText m) =>
      if existsb (String.eqb m) ["pca"; "flda"; "lpp"] then
        match a "reg" with
        | Some PNone => Ok (mkObj (upd a "reg" (PNum 0)) [] (fun _ => None))
        | Some (PNum q) => if negb (Qle_bool 0 q) || negb (Qle_bool q 1) then Err ValueError else Ok (mkObj a [] (fun _ => None))
        | _ => Err TypeError
        end
      else Err ValueError
  | _ => Err ValueError
  end.
Definition tsl_cls : cls := mkCls
  [("n_components", None'); ("base_method", T "flda"); ("length_scale", N 2); ("mu", small 10); ("reg", small 100); ("max_iter", N 100);
   ("tol", small 100); ("verbose", F)] false tsl_init.
(** What fit makes of the two checked attributes, lines 773-835: the covariance needs a number; a method that is none of the three
    leaves the loss unassigned. *)
Definition tsl_used (o : obj) : res (string * Q) :=
  match o_attr o "reg" with
  | Some (PNum q) =>
      match o_attr o "base_method" with
      | Some (PText m) => if existsb (String.eqb m) ["pca"; "flda"; "lpp"] then Ok (m, q) else Err UnboundLocalError
      | _ => Err UnboundLocalError
      end
  | _ => Err TypeError
  end.

(** GradualEstimator.fit, _gradual_da.py lines 118-128: the estimator that is fitted. *)
Definition mlp : est := mkEst 1005 None true true.
Definition gradual_base (v : pv) : res pv := t <- truth v ;; Ok (if t then v else PEst mlp).

Local Close Scope string_scope.
(** ** Default estimators of the shorthand pipelines: objects on a heap *)
(** [h_next]: the next free address; [h_val a]: the hyper-parameter settings of the estimator at address a. *)
Record heap := mkHeap { h_next : nat; h_val : nat -> dict string pv }.
Definition alloc (h : heap) (d : dict string pv) : nat * heap :=
  (h_next h, mkHeap (S (h_next h)) (fun a => if (a =? h_next h)%nat then d else h_val h a)).
(** [pipe.set_params(step__k=v)] on a pipeline whose last step wraps the estimator at address a: the selector passes it on to the
    estimator itself (base.py lines 258-280). *)
Definition heap_set (h : heap) (a : nat) (k : string) (v : pv) : heap :=
  mkHeap (h_next h) (fun b => if (b =? a)%nat then dict_set String.eqb k v (h_val h b) else h_val h b).

(** Two ways of giving a default: [if base_estimator is None: base_estimator = SVC(...)] (_mapping.py lines 187-188, 296-297,
    510-511, 746-747, 967-968, 1218-1219; _reweight.py lines 167-168, 288-289, 392-393, 628-629, 933-934, 1183-1184, 1399-1400;
    _ot.py lines 896-897, 1034-1035; _subspace.py lines 202-203, 406-407, 684-685, 1011-1012), or a default argument that is an object, created when the
    module is loaded (ClassRegularizerOTMapping, _mapping.py lines 382-383). *)
Inductive default_style := PerCall | AtImport (a : nat).
(** A call of the shorthand without base_estimator: the address of the pipeline's estimator. *)
Definition build (st : default_style) (default : dict string pv) (h : heap) : nat * heap :=
  match st with PerCall => alloc h default | AtImport a => (a, h) end.
(** A history: pipelines are built, and parameters set on earlier ones (by position). *)
Inductive op := Build | SetParam (p : nat) (k : string) (v : pv).
Definition step (st : default_style) (default : dict string pv) (s : list nat * heap) (o : op) : list nat * heap :=
  let (ps, h) := s in
  match o with
  | Build => let (a, h') := build st default h in (ps ++ [a], h')
  | SetParam p k v => match nth_error ps p with Some a => (ps, heap_set h a k v) | None => (ps, h) end
  end.
Definition run (st : default_style) (default : dict string pv) (h : heap) (ops : list op) : list nat * heap :=
  fold_left (step st default) ops ([], h).
(** When the module is loaded the default argument is created. *)
Definition at_import (default : dict string pv) (h : heap) : default_style * heap :=
  let (a, h') := alloc h default in (AtImport a, h').
