(** Model of the [scoring] argument of SupervisedScorer, ImportanceWeightedScorer and MixValScorer, of the constructors of the scorers and of
    what a scorer object keeps between calls: /repo/skada/metrics.py, on top of MetricsModel. Callables are given with the keywords they accept. *)
From Coq Require Import String List ZArith QArith Bool Arith Lia Reals Lra.
From Verif Require Import Np Labels UtilsModel SelectModel RVec ReweightModel MetricsModel.
Import ListNotations.
Local Open Scope nat_scope.
Local Open Scope list_scope.

(** ** Calls with keywords *)
(** Values of keywords: sample_domain, sample_weight, allow_source, anything else. *)
Inductive kwv := KDomain (sd : list Z) | KWeights (w : list R) | KFlag (b : bool) | KOther (n : nat).
Definition kwargs : Type := list (string * kwv).
(** The keywords a python function accepts: those listed, or any (a parameter collecting all others). *)
Inductive accepts := Only (l : list string) | Any.
Definition accepted (a : accepts) (kw : kwargs) : bool :=
  match a with Any => true | Only l => forallb (fun p => existsb (String.eqb (fst p)) l) kw end.

Section Scoring.
  Context {Row L : Type}.
  (** A function called as f(estimator, X, y, ...); the estimator is part of the function. An unexpected keyword is a TypeError. *)
  Record fn3 := mkF3 { f3_accepts : accepts; f3_run : list Row -> list L -> kwargs -> res R }.
  Definition call3 (f : fn3) (X : list Row) (y : list L) (kw : kwargs) : res R := if accepted (f3_accepts f) kw then f3_run f X y kw else Err TypeError.
  (** A metric, called as f(y, y_pred, ...). *)
  Record metric := mkMetric { mt_accepts : accepts; mt_run : list L -> list L -> kwargs -> res R; mt_sign : R }.
  (** The estimator scored: its score method (None: it has none) and its predict method, called without keywords. *)
  Record scored_est := mkEst { e_score : option fn3; e_predict : list Row -> res (list L) }.

  (** What may be given as [scoring]: None, a string, a function, a scorer made with sklearn's make_scorer. *)
  Inductive scoring := ScNone | ScStr (s : string) | ScFun (f : fn3) | ScObj (m : metric).
  Variable registry : string -> option metric.

  (** A scorer of sklearn (external: _BaseScorer.__call__ and _PredictScorer._score): predict on X alone, then the metric with the keywords of
      the call. *)
  Definition call_scorer (m : metric) (e : scored_est) (X : list Row) (y : list L) (kw : kwargs) : res R :=
    p <- e_predict e X ;;
    if accepted (mt_accepts m) kw then s <- mt_run m y p kw ;; Ok (mt_sign m * s)%R else Err TypeError.
  (** check_scoring(estimator, scoring) of sklearn (external): a string is looked up, None is the score method of the estimator. *)
  Definition check_scoring (e : scored_est) (sc : scoring) : res (list Row -> list L -> kwargs -> res R) :=
    match sc with
    | ScNone => match e_score e with Some f => Ok (call3 f) | None => Err TypeError end
    | ScStr s => match registry s with Some m => Ok (call_scorer m e) | None => Err ValueError end
    | ScFun f => Ok (call3 f)
    | ScObj m => Ok (call_scorer m e)
    end.

  (** The attribute _score_func of the base class, lines 40-47, called by SupervisedScorer: the argument as it was given (line 71), or
      _estimator_score (lines 36-37), which calls the score method with X and y only. A string cannot be called. *)
  Definition score_func (e : scored_est) (sc : scoring) (X : list Row) (y : list L) (kw : kwargs) : res R :=
    match sc with
    | ScNone => match e_score e with Some f => call3 f X y [] | None => Err AttributeError end
    | ScStr _ => Err TypeError
    | ScFun f => call3 f X y kw
    | ScObj m => call_scorer m e X y kw
    end.

  (** SupervisedScorer._score, lines 76-87; [params]: further keywords of the call. *)
  Definition supervised (sign : R) (e : scored_est) (sc : scoring) (params : kwargs) (X : list Row) (y : list val) (sda : sd_arg) (tl : list L) : res R :=
    supervised_score Row sign (fun Xt yt sdt => score_func e sc Xt yt (("sample_domain"%string, KDomain sdt) :: params)) X y sda tl.
End Scoring.
Arguments fn3 : clear implicits. Arguments metric : clear implicits. Arguments scored_est : clear implicits. Arguments scoring : clear implicits.
Arguments mkF3 {Row L}. Arguments mkMetric {L}. Arguments mkEst {Row L}. Arguments ScNone {Row L}. Arguments ScStr {Row L}. Arguments ScFun {Row L}. Arguments ScObj {Row L}.

(** ImportanceWeightedScorer._score, lines 165-208; [weighted]: the routing of the estimator's score consumes sample_weight (lines 167-173). *)
Definition importance {Row} registry (sign : R) (e : scored_est Row val) (weighted : bool) (sc : scoring Row val) (params : kwargs)
           (kde : list Row -> res (list Row -> res (list R))) (fexp : R -> R) (X : list Row) (y : list val) (sda : sd_arg) : res R :=
  scorer <- check_scoring registry e sc ;;
  if negb weighted then Err ValueError
  else importance_score Row sign kde fexp
         (fun Xs ys sds w => scorer Xs ys (("sample_domain", KDomain sds) :: ("sample_weight", KWeights w) :: ("allow_source", KFlag true) :: params)%string) X y sda.

(** MixValScorer._score, lines 717-797. *)
Definition mixval registry (sign : R) (e : scored_est (list R) Z) (sc : scoring (list R) Z) (predict : list (list R) -> list Z -> res (list Z))
           (alpha : R) (ice : ice_type) (perm : list nat) (X : list (list R)) (y : list val) (sda : sd_arg) : res (option R) :=
  scorer <- check_scoring registry e sc ;;
  mixval_score sign predict (fun Xm ym sdm => scorer Xm ym [("sample_domain"%string, KDomain sdm)]) alpha ice perm X y sda.

(** ** Constructors *)
(** PredictionEntropyScorer, lines 242-252. *)
Definition entropy_init (reduction : string) : res MetricsModel.reduction :=
  if String.eqb reduction "none" then Ok RNone else if String.eqb reduction "mean" then Ok RMean else if String.eqb reduction "sum" then Ok RSum else Err ValueError.
(** MixValScorer, lines 697-715. *)
Definition mixval_init (ice : string) : res ice_type :=
  if String.eqb ice "both" then Ok IceBoth else if String.eqb ice "intra" then Ok IceIntra else if String.eqb ice "inter" then Ok IceInter else Err ValueError.
(** MaNoScorer, lines 840-849. *)
Definition mano_init (p : R) : res R := if Rleb p 0 then Err ValueError else Ok p.
(** CircularValidation, lines 542-557; [callable]: whether source_scorer can be called. *)
Definition circular_init (callable : bool) : res unit := if callable then Ok tt else Err ValueError.

(** ** What is kept between calls *)
Section Kept.
  (** Estimators are objects on a heap, named by their position, a new one being added at the end; [St]: what an estimator object holds (parameters and fitted attributes). [Fitted]: a density estimator
      or a domain classifier. [F]: a sample as the features of the estimator. *)
  Context {Row St Fitted F : Type}.
  Definition heap : Type := list St.
  Definition at_ (h : heap) (i : nat) : option St := nth_error h i.
  Definition put (h : heap) (i : nat) (s : St) : heap := firstn i h ++ s :: skipn (S i) h.
  (** Methods of an estimator that only read it (external): predict, score with weights, the logits of infer, the features and predict_proba. *)
  Variable predict : St -> list Row -> list Z -> res (list val).
  Variable score : St -> list Row -> list val -> list Z -> list R -> res R.
  Variable infer : St -> list Row -> res (list (list R)).
  Variable features : St -> list Row -> res (list F).
  Variable proba : St -> list Row -> list Z -> res (list (list R)).
  (** What an estimator holds after fit; whether deepcopy succeeds on it; what its clone holds (external). *)
  Variable fit : St -> list Row * list val * list Z -> res St.
  Variable copyable : St -> bool.
  Variable unfit : St -> St.
  (** The densities of ImportanceWeightedScorer and the classifier of DeepEmbeddedValidation: a clone, fit, and what is read afterwards (external). *)
  Variable unfitted : Fitted.
  Variable fit_density : list Row -> res Fitted.
  Variable score_samples : Fitted -> list Row -> res (list R).
  Variable fit_classifier : list F -> list Z -> res Fitted.
  Variable classifier_proba : Fitted -> list F -> res (list (R * R)).
  Variable fexp : R -> R.
  Variable loss : val -> list R -> R.
  Variable source_scorer : list val -> list val -> res R.

  (** The attributes scoring writes into the scorer: weight_estimator_source_ and weight_estimator_target_ (lines 159-162), domain_classifier_
      (lines 392-396), chosen_normalization (lines 846, 908, 912). *)
  Record kept := mkKept { k_source : option Fitted; k_target : option Fitted; k_classifier : option Fitted; k_norm : option string }.
  Definition kept0 : kept := mkKept None None None None.

  (** ImportanceWeightedScorer._score, lines 175-208, with _fit, lines 156-163: both clones are stored, then fitted one after the other, then read
      from the object. The routing test is left out here. *)
  Definition importance_kept (k : kept) (s : St) (sign : R) (X : list Row) (y : list val) (sda : sd_arg) : kept * res R :=
    match (sd <- check_X_y_domain (length X) y sda true all_flags ;; m <- extract_source_indices sd ;;
           Xs <- np_select m X ;; Xt <- np_select (map negb m) X ;; ys <- np_select m y ;; Ok (sd, m, Xs, Xt, ys)) with
    | Err e => (k, Err e)
    | Ok (sd, m, Xs, Xt, ys) =>
        let k0 := mkKept (Some unfitted) (Some unfitted) (k_classifier k) (k_norm k) in
        match fit_density Xs with
        | Err e => (k0, Err e)
        | Ok fs =>
            let k1 := mkKept (Some fs) (k_target k0) (k_classifier k0) (k_norm k0) in
            match fit_density Xt with
            | Err e => (k1, Err e)
            | Ok ft =>
                let k2 := mkKept (k_source k1) (Some ft) (k_classifier k1) (k_norm k1) in
                (k2, match k_source k2, k_target k2 with
                     | Some es, Some et =>
                         ws <- score_samples es Xs ;; wt <- score_samples et Xs ;;
                         d <- np_map2 Rminus wt ws ;;
                         let weights := normalise_sum_or_uniform (map fexp d) in
                         sds <- np_select m sd ;; r <- score s Xs ys sds weights ;; Ok (sign * r)%R
                     | _, _ => Err AttributeError
                     end)
            end
        end
    end.

  (** MaNoScorer._score on a deep model, lines 858-890 and 903-914: the normalisation chosen is recorded. *)
  Definition mano_kept (k : kept) (s : St) (sign p threshold : R) (X : list Row) (y : list val) (sda : sd_arg) : kept * res R :=
    match (tp <- target_part Row X y sda ;;
           ty <- find_y_type1 y ;; match ty with CONTINUOUS => Err ValueError | DISCRETE => infer s (snd (fst tp)) end) with
    | Err e => (k, Err e)
    | Ok logits =>
        let (criterion, logits') := mano_criterion logits in
        if Rltb threshold criterion
        then (mkKept (k_source k) (k_target k) (k_classifier k) (Some "softmax"%string), Ok (sign * mano_aggregate p (fst (stable_softmax logits')))%R)
        else (mkKept (k_source k) (k_target k) (k_classifier k) (Some "taylor"%string), Ok (sign * mano_aggregate p (taylor_softmax logits'))%R)
    end.

  (** DeepEmbeddedValidation._score, lines 432-479, with _fit_adapt, lines 388-397; [tr], [va]: the split drawn; the labels are read as they are. *)
  Definition dev_kept (k : kept) (s : St) (sign : R) (tr va : list nat) (X : list Row) (y : list val) (sda : sd_arg) : kept * res R :=
    match (sd <- check_X_y_domain (length X) y sda true all_flags ;; m <- extract_source_indices sd ;;
           Xs <- np_select m X ;; ys <- np_select m y ;; sds <- np_select m sd ;;
           X_train <- np_take tr Xs ;; X_val <- np_take va Xs ;; y_val <- np_take va ys ;; sd_val <- np_take va sds ;;
           Xt <- np_select (map negb m) X ;;
           f_train <- features s X_train ;; f_val <- features s X_val ;; f_target <- features s Xt ;; Ok (X_val, y_val, sd_val, f_train, f_val, f_target)) with
    | Err e => (k, Err e)
    | Ok (X_val, y_val, sd_val, f_train, f_val, f_target) =>
        let k0 := mkKept (k_source k) (k_target k) (Some unfitted) (k_norm k) in
        match fit_classifier (f_train ++ f_target) (repeat 1%Z (length f_train) ++ repeat 0%Z (length f_target)) with
        | Err e => (k0, Err e)
        | Ok c =>
            let k1 := mkKept (k_source k0) (k_target k0) (Some c) (k_norm k0) in
            (k1, match k_classifier k1 with
                 | None => Err AttributeError
                 | Some c =>
                     domain_pred <- classifier_proba c f_val ;;
                     let weights := map (fun p => INR (length f_train) / INR (length f_target) * fst p / snd p)%R domain_pred in
                     y_pred <- proba s X_val sd_val ;;
                     error <- np_map2 loss y_val y_pred ;;
                     if length weights =? length error then Ok (sign * dev_value weights error)%R else Err AssertionError
                 end)
        end
    end.

  (** CircularValidation._score, lines 579-648: the copy (lines 592-595) is a new object, made after the checks; predict is asked of the estimator,
      fit of the copy. [dt]: the dtype of y. *)
  Definition backward_of (s : St) : St := if copyable s then s else unfit s.
  Definition circular_heap (h : heap) (i : nat) (sign : R) (dt : dtype) (X : list Row) (y : list val) (sda : sd_arg) : heap * res R :=
    match at_ h i with
    | None => (h, Err AttributeError)
    | Some s =>
        match (tp <- target_part Row X y sda ;; _ty <- check_y_masking y ;; Ok tt) with
        | Err e => (h, Err e)
        | Ok _ =>
            let j := length h in
            let h1 := h ++ [backward_of s] in
            let h2 := match at_ h1 i, at_ h1 j with
                      | Some s, Some b =>
                          match circular_backward Row (predict s) dt X y sda with
                          | Ok (Some data) => match fit b data with Ok b' => put h1 j b' | Err _ => h1 end
                          | _ => h1
                          end
                      | _, _ => h1
                      end in
            (h2, circular_score Row sign (predict s) (fun data => b' <- fit (backward_of s) data ;; Ok (predict b')) source_scorer dt X y sda)
        end
    end.

  (** ** Several scorings, one after the other, with any scorers and estimators *)
  Inductive task := TImportance | TMano (p threshold : R) | TDev (tr va : list nat) | TCircular (dt : dtype).
  Record request := mkReq { q_scorer : nat; q_est : nat; q_task : task; q_sign : R; q_X : list Row; q_y : list val; q_sd : sd_arg }.
  Record world := mkW { w_heap : heap; w_kept : nat -> kept }.
  Definition keep (w : world) (o : nat) (k : kept) : world := mkW (w_heap w) (fun j => if j =? o then k else w_kept w j).
  Definition one (w : world) (q : request) : world * res R :=
    let k := w_kept w (q_scorer q) in
    match at_ (w_heap w) (q_est q) with
    | None => (w, Err AttributeError)
    | Some s =>
        match q_task q with
        | TImportance => let (k', r) := importance_kept k s (q_sign q) (q_X q) (q_y q) (q_sd q) in (keep w (q_scorer q) k', r)
        | TMano p t => let (k', r) := mano_kept k s (q_sign q) p t (q_X q) (q_y q) (q_sd q) in (keep w (q_scorer q) k', r)
        | TDev tr va => let (k', r) := dev_kept k s (q_sign q) tr va (q_X q) (q_y q) (q_sd q) in (keep w (q_scorer q) k', r)
        | TCircular dt => let (h', r) := circular_heap (w_heap w) (q_est q) (q_sign q) dt (q_X q) (q_y q) (q_sd q) in (mkW h' (w_kept w), r)
        end
    end.
  Fixpoint many (w : world) (qs : list request) : world * list (res R) :=
    match qs with
    | [] => (w, [])
    | q :: qs' => let (w1, r) := one w q in let (w2, rs) := many w1 qs' in (w2, r :: rs)
    end.
End Kept.
