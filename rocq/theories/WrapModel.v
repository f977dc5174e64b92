(** Model of the prediction methods of the estimators provided by skada: JDOTRegressor, JDOTClassifier
    (/repo/skada/_ot.py lines 573-764), DASVMClassifier (/repo/skada/_self_labeling.py lines 56-68 and 276-313) and GradualEstimator
    (/repo/skada/_gradual_da.py lines 52-64 and 216-309), called directly or as the last step of a pipeline.
    Values of keyword arguments are abstract ([V]); [None] is Python's None. *)
From Coq Require Import String List ZArith Bool Arith.
From Verif Require Import Np Sel2Model.
Import ListNotations.
Local Open Scope list_scope.

Inductive est_class := JdotReg | JdotClf | Dasvm | Gradual.
Inductive meth := MPredict | MProba | MLogProba | MDecision | MScore.

(** The requests found by sklearn: a parameter of the signature is unset unless a __metadata_request__ attribute names it; the attributes of
    the parent (/repo/skada/base.py lines 121-133) come first, then those of the class. *)
Definition requests (c : est_class) (m : meth) : dict string req :=
  match c, m with
  | JdotReg, (MPredict | MScore) | JdotClf, (MPredict | MProba | MScore) =>
      [("sample_domain"%string, RTrue); ("sample_weight"%string, RUnset); ("allow_source"%string, RTrue)]
  | JdotReg, _ | JdotClf, _ => [("sample_domain"%string, RTrue); ("allow_source"%string, RTrue)]
  | Dasvm, MScore => [("sample_domain"%string, RFalse); ("sample_weight"%string, RUnset); ("allow_source"%string, RFalse)]
  | Dasvm, _ | Gradual, _ => [("sample_domain"%string, RFalse); ("allow_source"%string, RFalse)]
  end.

Section Wrap.
  Context {V Out : Type}.
  (** The estimator inside: which methods it has, and a call of one of them with keyword arguments. *)
  Record inner := mkInner { i_has : meth -> bool; i_call : meth -> kwargs V -> res Out }.
  (** Does a value of sample_domain contain a label >= 0? *)
  Variable has_source : V -> bool.

  (** Python's check of keyword arguments against the named parameters of a method without [**kwargs ]. *)
  Definition accepts (names : list string) (kws : kwargs V) : res unit :=
    if forallb (fun kv => existsb (String.eqb (fst kv)) names) kws then Ok tt else Err TypeError.
  Definition arg (k : string) (kws : kwargs V) : option V := given k kws.
  Definition without (ks : list string) (kws : kwargs V) : kwargs V := filter (fun kv => negb (existsb (String.eqb (fst kv)) ks)) kws.
  (** The warning of e.g. lines 598-602. *)
  Definition source_warning (kws : kwargs V) : bool := match arg "sample_domain" kws with Some v => has_source v | None => false end.

  Definition with_fitted (e : exn) (st : option inner) (f : inner -> res (Out * bool)) : res (Out * bool) :=
    match st with Some i => f i | None => Err e end.
  Definition out (w : bool) (r : res Out) : res (Out * bool) := x <- r ;; Ok (x, w).

  (** A call of method [m] on an object of class [c]; [st]: the fitted estimator inside ([None] before fit); [base]: the estimator
      given to the constructor. The result with a flag telling whether the warning on source samples was issued.
      Lines: JDOTRegressor 595-613; JDOTClassifier 725-764; DASVM 276-313; GradualEstimator 216-309 (its inner estimator is the given
      one, fitted in place; [score] compares predictions with labels, here the inner estimator's accuracy). *)
  Definition call (c : est_class) (base : inner) (st : option inner) (m : meth) (kws : kwargs V) : res (Out * bool) :=
    match c, m with
    | JdotReg, MPredict =>
        _ <- accepts ["sample_domain"; "sample_weight"]%string kws ;;
        with_fitted NotFittedError st (fun i => out (source_warning kws) (i_call i MPredict []))
    | JdotReg, MScore =>
        _ <- accepts ["sample_domain"; "sample_weight"]%string kws ;;
        with_fitted NotFittedError st (fun i => out (source_warning kws) (i_call i MScore [("sample_weight"%string, arg "sample_weight" kws)]))
    | JdotReg, _ => Err AttributeError
    | JdotClf, MPredict =>
        _ <- accepts ["sample_domain"; "sample_weight"; "allow_source"]%string kws ;;
        with_fitted NotFittedError st (fun i => out (source_warning kws) (i_call i MPredict []))
    | JdotClf, MProba =>
        if i_has base MProba then
          _ <- accepts ["sample_domain"; "sample_weight"; "allow_source"]%string kws ;;
          with_fitted NotFittedError st (fun i => out (source_warning kws) (i_call i MProba []))
        else Err AttributeError
    | JdotClf, MScore =>
        with_fitted NotFittedError st (fun i => out (source_warning kws) (i_call i MScore [("sample_weight"%string, arg "sample_weight" kws)]))
    | JdotClf, _ => Err AttributeError
    | Dasvm, MPredict => with_fitted AttributeError st (fun i => out false (i_call i MPredict kws))
    | Dasvm, MProba =>
        if i_has base MProba then with_fitted NotFittedError st (fun _ => out false (i_call base MProba kws)) else Err AttributeError
    | Dasvm, MDecision => _ <- accepts [] kws ;; with_fitted AttributeError st (fun i => out false (i_call i MDecision []))
    | Dasvm, MScore =>
        with_fitted NotFittedError st (fun i => out (source_warning kws)
          (i_call i MScore (("sample_weight"%string, arg "sample_weight" kws) :: without ["sample_domain"; "sample_weight"]%string kws)))
    | Dasvm, MLogProba => Err AttributeError
    | Gradual, MPredict => with_fitted ValueError st (fun i => out false (i_call i MPredict kws))
    | Gradual, (MProba | MLogProba) =>
        with_fitted ValueError st (fun i => if i_has i m then out false (i_call i m kws) else Err ValueError)
    | Gradual, MScore => _ <- accepts [] kws ;; with_fitted ValueError st (fun i => out false (i_call i MScore []))
    | Gradual, MDecision => Err AttributeError
    end.

  (** The same call through the selector that ends a pipeline (/repo/skada/base.py lines 442-451, Sel2Model.prepare_routing); errors of
      the routing are subclasses of ValueError. *)
  Definition pipe_call (c : est_class) (base : inner) (st : option inner) (m : meth) (ps : kwargs V) : res (Out * bool) :=
    match prepare_routing true false (requests c m) (Some []) ps with
    | Routed d => call c base st m d
    | UnsetMetadata | Incompatible _ => Err ValueError
    | NoIterMetadata => Err AttributeError
    end.

  (** [fit]: what the method returns, [true] for the estimator itself, [false] for None (_ot.py lines 573-593 and 701-723,
      _self_labeling.py line 274, _gradual_da.py line 144). *)
  Definition fit_returns_self (c : est_class) : bool := match c with JdotReg | JdotClf => false | Dasvm | Gradual => true end.
  (** [est.fit(...).predict(...)]: None has no attribute. *)
  Definition fit_then (c : est_class) (base i : inner) (m : meth) (kws : kwargs V) : res (Out * bool) :=
    if fit_returns_self c then call c base (Some i) m kws else Err AttributeError.
End Wrap.
Arguments inner : clear implicits.
