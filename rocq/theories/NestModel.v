(** Parameters of nested estimators read and set by their path (step__parameter__parameter): the selectors of /repo/skada/base.py lines 209-280 inside
    scikit-learn's Pipeline and BaseEstimator (get_params(deep=True), set_params with one key). A path is the list of the names separated by "__";
    names contain no "__" (scikit-learn refuses such step names). The entries steps, memory, verbose of a pipeline are left out. *)
From Coq Require Import String List Bool.
From Verif Require Import Np.
Import ListNotations.
Local Open Scope string_scope.
Local Open Scope list_scope.

Section Nest.
  Variable V : Type.
  (** A value without parameters, None, an estimator with its constructor arguments, a selector (Shared, PerDomain, SelectSource, SelectTarget), a
      pipeline. *)
  Inductive obj :=
  | Leaf (v : V)
  | NoneObj
  | Est (ps : list (string * obj))
  | Sel (base : obj)
  | Pipe (steps : list (string * obj)).

  Definition is_base (p : list string) : bool := match p with [k] => String.eqb k "base_estimator" | _ => false end.

  (** The wrapped estimator of nested selectors: get_params of a selector asks its base estimator (line 256). *)
  Fixpoint inner (o : obj) : obj := match o with Sel b => inner b | _ => o end.
  (** get_params(deep=True)[path]; [None]: no such key. Line 257: "base_estimator" of a selector is the wrapped estimator, whatever the
      wrapped estimator has under that name. *)
  Fixpoint get (o : obj) (path : list string) : option obj :=
    match path with
    | [] => None
    | k :: rest =>
        match o with
        | Sel b => if is_base path then Some b
                   else match inner b with
                        | Est l | Pipe l => match dict_get String.eqb k l with
                                            | None => None
                                            | Some x => match rest with [] => Some x | _ => get x rest end
                                            end
                        | _ => None
                        end
        | Est l | Pipe l => match dict_get String.eqb k l with
                            | None => None
                            | Some x => match rest with [] => Some x | _ => get x rest end
                            end
        | _ => None
        end
    end.

  (** A change of the wrapped estimator through selectors (line 279). *)
  Fixpoint within (f : obj -> res obj) (o : obj) : res obj := match o with Sel b => r <- within f b ;; Ok (Sel r) | _ => f o end.
  (** scikit-learn's set_params of an estimator (or a pipeline) for the first name [k] of the path: an unknown name raises ValueError, a value
      without set_params AttributeError. [below]: set_params of the value for the rest of the path, if any. *)
  Definition set_first (k : string) (below : option (obj -> res obj)) (v : obj) (o : obj) : res obj :=
    let on l := match dict_get String.eqb k l with
                | None => Err ValueError
                | Some x => x' <- (match below with None => Ok v | Some f => f x end) ;; Ok (dict_set String.eqb k x' l)
                end in
    match o with
    | Est l => l' <- on l ;; Ok (Est l')
    | Pipe l => l' <- on l ;; Ok (Pipe l')
    | _ => Err AttributeError
    end.
  (** set_params(path = v). Lines 260-280: a selector takes base_estimator for itself, unless it is None (a value without
      set_params fails on line 279), and passes on all other keys. *)
  Fixpoint set (path : list string) (v : obj) (o : obj) : res obj :=
    match path with
    | [] => Ok o
    | k :: rest =>
        let f := set_first k (match rest with [] => None | _ => Some (set rest v) end) v in
        match o with
        | Sel b => if is_base path then match v with NoneObj => Ok o | Leaf _ => Err AttributeError | _ => Ok (Sel v) end
                   else r <- within f b ;; Ok (Sel r)
        | _ => f o
        end
    end.
End Nest.
Arguments Leaf {V} v. Arguments NoneObj {V}. Arguments Est {V} ps. Arguments Sel {V} base. Arguments Pipe {V} steps.
Arguments get {V} o path. Arguments set {V} path v o. Arguments inner {V} o. Arguments within {V} f o. Arguments set_first {V} k below v o.
