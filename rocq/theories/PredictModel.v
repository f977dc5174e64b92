(** Model of a fitted pipeline at prediction time: the selectors of /repo/skada/base.py composed by scikit-learn's
    Pipeline. *)
From Coq Require Import String List ZArith Bool Arith.
From Verif Require Import Np UtilsModel SelectModel Sel2Model.
Import ListNotations.
Local Open Scope nat_scope.
Local Open Scope list_scope.

(** A fitted selector and the method that is called on it: for each wrapped estimator the parameters it asks for
    ([_prepare_routing], /repo/skada/base.py lines 320-348) and its fitted method, both oracles.
    [FShared]: Shared, SelectSource and SelectTarget, whose prediction methods are those of Shared (lines 442-452;
    _BaseSelectDomain, lines 536-577, only overrides the fit methods). [FPerDomain]: one estimator per domain label
    seen in fit (lines 507-533). [FSourceTarget]: one per side (lines 740-764). *)
Inductive fitted_step (R A : Type) : Type :=
| FShared (route : params -> res params) (meth : list R -> params -> res (list A))
| FPerDomain (route : params -> res params) (ests : dict Z (list R -> params -> res (list A)))
| FSourceTarget (route_s route_t : params -> res params) (meth_s meth_t : list R -> params -> res (list A)).
Arguments FShared {R A}. Arguments FPerDomain {R A}. Arguments FSourceTarget {R A}.

(** One call without labels. [is_transformer] only matters when labels are given. *)
Definition step_call {R A} (zero : A) (s : fitted_step R A) (X : list R) (ps : params) : res (list A) :=
  match s with
  | FShared route meth => k <- shared_route route false X None ps ;; meth (k_X k) (k_params k)
  | FPerDomain route ests => per_domain_route route zero (fun e => e) ests X ps
  | FSourceTarget rs rt ms mt => sst_route rs rt zero ms mt X ps
  end.

(** [Pipeline.predict] of scikit-learn (external code) on selectors: the transform method of every step but the last,
    then the prediction method of the last. Simplification: every step receives the same parameters. *)
Fixpoint pipe_predict {R A} (zr : R) (za : A) (steps : list (fitted_step R R)) (fin : fitted_step R A)
  (X : list R) (ps : params) : res (list A) :=
  match steps with
  | [] => step_call za fin X ps
  | s :: steps' => X' <- step_call zr s X ps ;; pipe_predict zr za steps' fin X' ps
  end.
