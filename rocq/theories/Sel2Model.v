(** Model of the second half of the selector machinery of /repo/skada/base.py (lines 36-56, 205-398, 412-452,
    490-533, 602-787): which methods a selector exposes, scoring, parameters, fit_transform for estimators without
    their own, and metadata routing. The fitting and prediction paths are in SelectModel.v. *)
From Coq Require Import String List ZArith QArith Bool Arith Lia.
From Verif Require Import Np Labels UtilsModel SelectModel PipeModel.
Import ListNotations.
Local Open Scope nat_scope.
Local Open Scope list_scope.

(** ** Methods exposed by a selector *)

Inductive meth :=
| MTransform | MFitTransform | MPredict | MPredictProba | MPredictLogProba | MDecision | MScore.

(** The methods an estimator object has ([hasattr]). *)
Definition caps := meth -> bool.

(** Keys of the dictionary [estimators_]: a domain label (PerDomain) or 'source'/'target' (SelectSourceTarget). *)
Inductive ekey := KLabel (z : Z) | KSource | KTarget.

Definition ekey_eqb (a b : ekey) : bool :=
  match a, b with
  | KLabel x, KLabel y => Z.eqb x y
  | KSource, KSource | KTarget, KTarget => true
  | _, _ => false
  end.

(** The attributes of a selector object read by [_estimator_has]; [None] when the attribute does not exist. *)
Record selobj := mkObj {
  ob_base : option caps;                      (* base_estimator *)
  ob_source : option caps;                    (* source_estimator *)
  ob_fitted : option (dict ekey caps) }.      (* estimators_ *)

(** Lines 42-46 ([use_source]: base_attr_name is 'source_estimator' instead of 'base_estimator'). *)
Definition has_base_estimator (use_source : bool) (m : meth) (o : selobj) : bool :=
  match (if use_source then ob_source o else ob_base o) with Some c => c m | None => false end.

(** Lines 49-53: [estimators_[0]] is a dictionary access with key 0. *)
Definition has_estimator_selector (m : meth) (o : selobj) : res bool :=
  match ob_fitted o with
  | None => Ok false
  | Some d => match dict_get ekey_eqb (KLabel 0) d with Some c => Ok (c m) | None => Err KeyError end
  end.

(** [_estimator_has], lines 36-56. *)
Definition estimator_has (use_source : bool) (m : meth) (o : selobj) : res bool :=
  if has_base_estimator use_source m o then Ok true else has_estimator_selector m o.

(** The [base_attr_name] used for each method: 'base_estimator' by default (lines 296-318, 417, 490, 574); class
    SelectSourceTarget redefines all of them with 'source_estimator' except [predict] (lines 727, 766-787). *)
Definition uses_source (c : selcls) (m : meth) : bool :=
  match c, m with
  | CSourceTarget, MPredict => false
  | CSourceTarget, _ => true
  | _, _ => false
  end.

(** [hasattr(selector, m)]: sklearn's [available_if] (external) raises AttributeError when the check is false or
    itself raises. *)
Definition exposes (c : selcls) (m : meth) (o : selobj) : bool :=
  match estimator_has (uses_source c m) m o with Ok b => b | Err _ => false end.

(** The attributes of a selector of class [c] built on [src] (and [tgt] for SelectSourceTarget; [None]: the source
    estimator is used for both): lines 209-215 and 605-620. *)
Definition new_obj (c : selcls) (src : caps) : selobj :=
  match c with
  | CSourceTarget => mkObj None (Some src) None
  | _ => mkObj (Some src) None None
  end.

(** After a successful fit: PerDomain stores one clone per domain label (line 486), SelectSourceTarget one per side
    (line 724), the others no dictionary. A clone has the methods of the original. *)
Definition fitted_obj (c : selcls) (src : caps) (tgt : option caps) (labels : list Z) : selobj :=
  match c with
  | CSourceTarget =>
      mkObj None (Some src)
            (Some [(KSource, src); (KTarget, match tgt with Some t => t | None => src end)])
  | CPerDomain => mkObj (Some src) None (Some (map (fun d => (KLabel d, src)) (unique labels)))
  | _ => mkObj (Some src) None None
  end.

(** Constructor checks of SelectSourceTarget, lines 606-613. *)
Definition sst_ctor (src : caps) (tgt : option caps) (mask : bool) : res unit :=
  if match tgt with Some t => src MTransform && negb (t MTransform) | None => false end then Err TypeError
  else if mask then Err ValueError
  else Ok tt.

(** ** Scoring and outputs that are not arrays *)

(** The value returned by a method of the wrapped estimator: an ndarray (list of rows) or a number ([float] and
    [np.float64] are not instances of [np.ndarray]). *)
Inductive mout (A : Type) := MArr (l : list A) | MNum (q : Q).
Arguments MArr {A}. Arguments MNum {A}.

(** [_merge_domain_outputs] without containers, /repo/skada/_utils.py lines 174-176 and 207-215: only the first
    output is checked to be an ndarray; a number assigned at an index is broadcast ([of_num] converts it to a row). *)
Definition merge_domain_any {A} (zero : A) (of_num : Q -> A) (n : nat) (outs : list (dindex * mout A))
  : res (list A) :=
  match outs with
  | [] => Err AssertionError
  | (_, MNum _) :: _ => Err AssertionError
  | _ => scatter_all (map (fun io => (fst io, match snd io with MArr l => l | MNum q => [of_num q] end)) outs)
                     (repeat zero n)
  end.

Section Score.
  Context {R : Type}.
  Variable route : params -> res params.

  (** [Shared._route_to_estimator], /repo/skada/base.py lines 442-452 (fitted selector): the arguments of the call
      made on the fitted estimator. *)
  Definition shared_route (is_transformer : bool) (X : list R) (y : option (list val)) (ps : params)
    : res (@call R) :=
    rp <- route ps ;;
    r <- sel_remove_masked is_transformer X y rp ;;
    let '(X', y', rp') := r in
    Ok (mkCall X' y' rp').

  (** [PerDomain._route_to_estimator], lines 507-533, with labels and any kind of output. *)
  Definition per_domain_route_any {Est A} (zero : A) (of_num : Q -> A)
             (method : Est -> @call R -> res (mout A)) (ests : dict Z Est)
             (X : list R) (y : option (list val)) (ps : params) : res (list A) :=
    rp <- route ps ;;
    sd <- match get_sd ps with Some sd => Ok sd | None => Err KeyError end ;;
    outs <- mapM (fun d =>
              match dict_get Z.eqb d ests with
              | None => Err ValueError
              | Some est =>
                  r <- domain_call X y rp sd d ;;
                  let '(_, (idx, k)) := r in
                  o <- method est k ;;
                  Ok (IInt idx, o)
              end) (unique sd) ;;
    merge_domain_any zero of_num (length X) outs.
End Score.

Section ScoreST.
  Context {R : Type}.
  Variables route_s route_t : params -> res params.

  (** One iteration of the loop of lines 749-763 of SelectSourceTarget, with labels; [is_transform] is the test
      [method_name == 'transform']. Every output must be an ndarray (line 762). *)
  Definition sst_out_any {A} (route : params -> res params) (is_transform : bool)
             (method : @call R -> res (mout A))
             (X : list R) (y : option (list val)) (ps : params) (m : list bool)
    : res (list (dindex * mout A)) :=
    if count m =? 0 then Ok []
    else
      r <- apply_domain_masks X y ps m ;;
      let '(X1, y1, ps1) := r in
      rp <- route ps1 ;;
      o <- method (mkCall X1 (if is_transform then None else y1) rp) ;;
      match o with
      | MNum _ => Err AssertionError
      | MArr _ => Ok [(IMask m, o)]
      end.

  (** [SelectSourceTarget._route_to_estimator], lines 740-764. *)
  Definition sst_route_any {A} (zero : A) (of_num : Q -> A) (is_transform : bool)
             (meth_s meth_t : @call R -> res (mout A))
             (X : list R) (y : option (list val)) (ps : params) : res (list A) :=
    sd <- sst_domains X y ps ;;
    let ps2 := dict_set String.eqb "sample_domain"%string (PDom sd) ps in
    m <- extract_source_indices sd ;;
    a <- sst_out_any route_s is_transform meth_s X y ps2 m ;;
    b <- sst_out_any route_t is_transform meth_t X y ps2 (map negb m) ;;
    merge_domain_any zero of_num (length X) (a ++ b).
End ScoreST.

(** ** Parameters *)

Section Params.
  (** Values of hyper-parameters of the wrapped estimator. *)
  Variable P : Type.

  (** A wrapped estimator: its constructor parameters. sklearn's [set_params] (external) raises ValueError on a name
      that is not one of them. Simplification: names with '__' (parameters of nested estimators) are not treated. *)
  Definition wrapped := dict string P.

  Definition est_set_params (e : wrapped) (kw : dict string P) : res wrapped :=
    if forallb (fun kv => match dict_get String.eqb (fst kv) e with Some _ => true | None => false end) kw
    then Ok (dict_update String.eqb e kw)
    else Err ValueError.

  (** The selector's own attributes; for SelectSourceTarget [ps_base] is [source_estimator]. *)
  Record psel := mkPSel { ps_cls : selcls; ps_base : wrapped; ps_mask : bool }.

  (** A value returned by [get_params] of a selector. *)
  Inductive pvalue := PVal (p : P) | PEst (e : wrapped).

  (** [BaseSelector.get_params(deep=False)], lines 239-256. SelectSourceTarget (lines 646-661) uses sklearn's
      [BaseEstimator.get_params], which reads an attribute for every constructor argument:
      [mask_target_labels] is never set (lines 605-620). *)
  Definition sel_get_params (s : psel) : res (dict string pvalue) :=
    match ps_cls s with
    | CSourceTarget => Err AttributeError
    | _ => Ok (dict_set String.eqb "base_estimator"%string (PEst (ps_base s))
                        (map (fun kv => (fst kv, PVal (snd kv))) (ps_base s)))
    end.

  (** [BaseSelector.set_params], lines 258-280; [None] is the default of [base_estimator]. SelectSourceTarget
      (lines 663-682): sklearn's [set_params] returns at once without arguments and otherwise calls [get_params]. *)
  Definition sel_set_params (s : psel) (base : option wrapped) (kw : dict string P) : res psel :=
    match ps_cls s with
    | CSourceTarget =>
        match base, kw with None, [] => Ok s | _, _ => Err AttributeError end
    | _ =>
        let b := match base with Some b => b | None => ps_base s end in
        b' <- est_set_params b kw ;;
        Ok (mkPSel (ps_cls s) b' (ps_mask s))
    end.

  (** Constructors of the selectors built on [base_estimator], lines 209-215 and 590-597; [None]: the default of
      [mask_target_labels]. *)
  Definition sel_new (c : selcls) (base : wrapped) (mask : option bool) (kw : dict string P) : res psel :=
    let m := match mask with
             | Some b => b
             | None => match c with CShared | CPerDomain | CSelectSource => true | _ => false end
             end in
    match c with
    | CSelectTarget => if m then Err ValueError else b <- est_set_params base kw ;; Ok (mkPSel c b m)
    | _ => b <- est_set_params base kw ;; Ok (mkPSel c b m)
    end.

  (** sklearn's [clone] (external): the constructor applied to the clones of [get_params(deep=False)], that is,
      [base_estimator] and the parameters of the wrapped estimator as keyword arguments. *)
  Definition sel_clone (s : psel) : res psel :=
    g <- sel_get_params s ;;
    match dict_get String.eqb "base_estimator"%string g with
    | Some (PEst b) =>
        sel_new (ps_cls s) b None
                (flat_map (fun kv => match snd kv with PVal p => [(fst kv, p)] | PEst _ => [] end) g)
    | _ => Err TypeError
    end.
End Params.
Arguments mkPSel {P}. Arguments ps_cls {P}. Arguments ps_base {P}. Arguments ps_mask {P}.
Arguments PVal {P}. Arguments PEst {P}.
Arguments sel_get_params {P}. Arguments sel_set_params {P}. Arguments sel_new {P}. Arguments sel_clone {P}.
Arguments est_set_params {P}.

(** ** fit_transform for an estimator without its own *)

Section FitTransform.
  Context {R Est : Type}.
  (** Routing of the [fit] and of the [transform] request of the wrapped estimator ([_prepare_routing] and
      [_route_params] agree on a transformer that is final; here one oracle is used for both). *)
  Variables route_fit route_tr : params -> res params.
  (** Fitting and transforming with the wrapped estimator. *)
  Variable est_fit : @call R -> res Est.
  Variable est_transform : Est -> list R -> params -> res (list R).

  (** [Shared.fit], lines 412-415 and 426-439: the caller's labels after the call and the fitted estimator. *)
  Definition shared_fit_est (mask : bool) (c : @container R) (y : option (list val)) (ps : params)
    : res (option (list val) * Est) :=
    r <- shared_fit route_fit true mask c y ps ;;
    let '(y', k) := r in
    e <- est_fit k ;;
    Ok (y', e).

  (** [Shared.transform] of the fitted selector, lines 442-452 (no labels: nothing is removed). *)
  Definition shared_transform (e : Est) (X : list R) (ps : params) : res (list R) :=
    k <- shared_route route_tr true X None ps ;;
    est_transform e (k_X k) (k_params k).

  (** [Shared.fit_transform], else branch, lines 421-424. *)
  Definition shared_fit_transform_fallback (mask : bool) (c : @container R) (y : option (list val)) (ps : params)
    : res (option (list val) * @container R) :=
    r <- shared_fit_est mask c y ps ;;
    let '(y', e) := r in
    let '(X, _, mp) := merge_out c y' ps in
    tp <- route_tr mp ;;
    o <- shared_transform e X tp ;;
    Ok (y', merge_in c (OArr o)).

  (** [PerDomain.fit_transform], else branch, lines 496-504: [self._fit(X_container, y, **params)] lacks the
      argument [method_name]. *)
  Definition per_domain_fit_transform_fallback (mask : bool) (c : @container R) (y : option (list val)) (ps : params)
    : res (option (list val) * @container R) :=
    _y <- (if mask then auto_mask y ps else Ok y) ;;
    Err TypeError.

  (** [SelectSourceTarget.fit_transform], else branch, lines 733-737: after fitting, [self.routing_] is read, which
      no method of the class sets. *)
  Definition sst_fit_transform_fallback (route_s route_t : params -> res params)
             (c : @container R) (y : option (list val)) (ps : params) : res (@container R) :=
    r <- sst_fit route_s route_t true c y ps ;;
    let '(ka, kb) := r in
    _a <- est_fit ka ;;
    _b <- est_fit kb ;;
    Err AttributeError.
End FitTransform.

(** ** Metadata routing *)

Section Routing.
  (** Parameter values other than None. *)
  Variable V : Type.

  (** A request of sklearn's MethodMetadataRequest (external): True, False, None (not set), or an alias. *)
  Inductive req := RTrue | RFalse | RUnset | RAlias (s : string).

  (** Keyword arguments: [None] is Python's None. *)
  Definition kwargs := dict string (option V).

  Definition given (k : string) (ps : kwargs) : option V :=
    match dict_get String.eqb k ps with Some (Some v) => Some v | _ => None end.

  (** [MethodMetadataRequest._route_params] (sklearn, external; called by /repo/skada/_utils.py lines 230-231):
      [None] when UnsetMetadataPassedError is raised. *)
  Definition unset_given (reqs : dict string req) (ps : kwargs) : bool :=
    existsb (fun kr => match snd kr with
                       | RUnset => match given (fst kr) ps with Some _ => true | None => false end
                       | _ => false
                       end) reqs.

  Definition route_params (reqs : dict string req) (ps : kwargs) : option (dict string V) :=
    if unset_given reqs ps then None
    else Some (flat_map (fun kr =>
      match snd kr with
      | RTrue => match given (fst kr) ps with Some v => [(fst kr, v)] | None => [] end
      | RAlias a => match given a ps with Some v => [(fst kr, v)] | None => [] end
      | RFalse | RUnset => []
      end) reqs).

  (** [MethodMetadataRequest._consumes] (sklearn, external). *)
  Definition consumes (reqs : dict string req) (ps : kwargs) : list string :=
    flat_map (fun kr =>
      match snd kr with
      | RTrue => match dict_get String.eqb (fst kr) ps with Some _ => [fst kr] | None => [] end
      | RAlias a => match dict_get String.eqb a ps with Some _ => [a] | None => [] end
      | RFalse | RUnset => []
      end) reqs.

  Inductive routed :=
  | Routed (d : kwargs)               (* the keyword arguments of the call on the wrapped estimator *)
  | UnsetMetadata                     (* UnsetMetadataPassedError *)
  | Incompatible (k : string)         (* IncompatibleMetadataError blaming the adapter's output k *)
  | NoIterMetadata.                   (* AttributeError: 'numpy.ndarray' object has no attribute 'iter_metadata' *)

  (** [BaseSelector._prepare_routing], /repo/skada/base.py lines 320-348. [meta]: the metadata of the container (or
      the dictionary) given as second argument; [None] when an ndarray is given (SelectSourceTarget, line 717). *)
  Definition prepare_routing (is_final is_transformer : bool) (reqs : dict string req) (meta : option kwargs)
             (ps : kwargs) : routed :=
    if is_final || negb is_transformer then
      match route_params reqs ps with
      | Some d => Routed (map (fun kv => (fst kv, Some (snd kv))) d)
      | None =>
          match meta with
          | None => NoIterMetadata
          | Some md =>
              match find (fun kv => match snd kv with
                                    | None => false
                                    | Some _ => match dict_get String.eqb (fst kv) reqs with
                                                | None | Some RUnset => true
                                                | _ => false
                                                end
                                    end) md with
              | Some kv => Incompatible (fst kv)
              | None => UnsetMetadata
              end
          end
      end
    else Routed (map (fun k => (k, match dict_get String.eqb k ps with Some v => v | None => None end))
                     (consumes reqs ps)).
End Routing.
Arguments given {V}. Arguments route_params {V}. Arguments unset_given {V}. Arguments consumes {V}.
Arguments prepare_routing {V}. Arguments Routed {V}. Arguments UnsetMetadata {V}. Arguments Incompatible {V}.
Arguments NoIterMetadata {V}.
