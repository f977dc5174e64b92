(** Model of the scorers of /repo/skada/metrics.py, over the real numbers (no rounding; NaN is [None] where the code
    tests for it). The fitted estimator, the scoring functions, density estimators and domain classifiers are external:
    they are the [Variable]s of the section, or arguments. [sign] is [1 if greater_is_better else -1]. *)
From Coq Require Import String List ZArith QArith Bool Arith Lia Reals Lra.
From Verif Require Import Np Labels UtilsModel SelectModel RVec ReweightModel.
Import ListNotations.
Local Open Scope nat_scope.
Local Open Scope list_scope.

(** Log-probabilities as returned by [predict_log_proba]: finite or minus infinity. *)
Inductive logp := NegInf | Fin (r : R).

(** Row-wise softmax, as in sklearn.utils.extmath.softmax (external) and [MaNoScorer._stable_softmax]. *)
Fixpoint vmax (x : R) (l : list R) : R := match l with [] => x | y :: l' => vmax (Rmax x y) l' end.
Fixpoint vmin (x : R) (l : list R) : R := match l with [] => x | y :: l' => vmin (Rmin x y) l' end.
Definition row_max (l : list R) : R := match l with [] => 0%R | x :: l' => vmax x l' end.
Definition row_min (l : list R) : R := match l with [] => 0%R | x :: l' => vmin x l' end.
Definition div_sum (l : list R) : list R := map (fun t => t / vsum l)%R l.
Definition shift_max (l : list R) : list R := map (fun t => t - row_max l)%R l.
Definition softmax_row (l : list R) : list R := div_sum (map exp (shift_max l)).

Section Metrics.
  Variable Row : Type.
  Variable sign : R.

  (** [X[~source_idx]] and [sample_domain[~source_idx]] after [check_X_y_domain] (e.g. lines 79-85, 260-264). *)
  Definition target_part (X : list Row) (y : list val) (sda : sd_arg) : res (list bool * list Row * list Z) :=
    sd <- check_X_y_domain (length X) y sda true all_flags ;;
    m <- extract_source_indices sd ;;
    Xt <- np_select (map negb m) X ;;
    sdt <- np_select (map negb m) sd ;;
    Ok (m, Xt, sdt).

  (** ** SupervisedScorer._score, lines 76-87; [score_func X y sample_domain]: the scoring function applied to the
      estimator; [tl]: the target_labels argument. *)
  Definition supervised_score {L} (score_func : list Row -> list L -> list Z -> res R) (X : list Row) (y : list val)
             (sda : sd_arg) (tl : list L) : res R :=
    tp <- target_part X y sda ;;
    let '(m, Xt, sdt) := tp in
    lt <- np_select (map negb m) tl ;;
    s <- score_func Xt lt sdt ;;
    Ok (sign * s)%R.

  (** ** ImportanceWeightedScorer._score, lines 165-208. [kde]: clone, fit, then score_samples of the weight
      estimator; [fexp]: numpy's exp; the flattening of lines 183-184 is part of [kde]. The routing test of lines
      167-173 is the caller's. *)
  Definition normalise_sum_or_uniform (w : list R) : list R :=
    if negb (Reqb (vsum w) 0) then map (fun t => t / vsum w)%R w
    else map (fun _ => 1 / INR (length w))%R w.

  Definition importance_score (kde : list Row -> res (list Row -> res (list R))) (fexp : R -> R)
             (scorer : list Row -> list val -> list Z -> list R -> res R) (X : list Row) (y : list val) (sda : sd_arg) : res R :=
    sd <- check_X_y_domain (length X) y sda true all_flags ;;
    m <- extract_source_indices sd ;;
    Xs <- np_select m X ;; Xt <- np_select (map negb m) X ;; ys <- np_select m y ;;
    es <- kde Xs ;; et <- kde Xt ;;
    ws <- es Xs ;; wt <- et Xs ;;
    d <- np_map2 Rminus wt ws ;;
    let weights := normalise_sum_or_uniform (map fexp d) in
    sds <- np_select m sd ;;
    s <- scorer Xs ys sds weights ;;
    Ok (sign * s)%R.

  (** ** PredictionEntropyScorer._score, lines 254-284. [predict_log_proba = None]: the estimator has no such method.
      Result: a number for "mean" and "sum", a matrix for "none". *)
  Inductive reduction := RNone | RMean | RSum.
  Inductive score_out := SNum (r : R) | SMat (M : list (list R)).

  Definition entropy_entry (p : R) (l : logp) : R := match l with NegInf => 0%R | Fin r => (- p * r)%R end.
  Definition np_map2_rows {A B C} (f : A -> B -> C) (u : list (list A)) (v : list (list B)) : res (list (list C)) :=
    r <- np_map2 (np_map2 f) u v ;; mapM (fun x => x) r.

  Definition entropy_score (predict_proba : list Row -> list Z -> res (list (list R)))
             (predict_log_proba : option (list Row -> list Z -> res (list (list logp)))) (red : reduction)
             (X : list Row) (y : list val) (sda : sd_arg) : res score_out :=
    tp <- target_part X y sda ;;
    let '(m, Xt, sdt) := tp in
    proba <- predict_proba Xt sdt ;;
    lp <- match predict_log_proba with
          | Some f => f Xt sdt
          | None => Ok (map (map (fun p => Fin (ln (p + / 10000000))%R)) proba)
          end ;;
    e <- np_map2_rows entropy_entry proba lp ;;
    match red with
    | RNone => Ok (SMat (map (vscale sign) e))
    | RSum => Ok (SNum (sign * vsum (concat e))%R)
    | RMean => Ok (SNum (sign * mean (concat e))%R)
    end.

  (** ** SoftNeighborhoodDensity._score, lines 315-334. [l2]: sklearn's Normalizer on one row (zero rows unchanged). *)
  Definition l2 (r : list R) : list R :=
    if Reqb (dot r r) 0 then r else map (fun t => t / sqrt (dot r r))%R r.
  (** [np.fill_diagonal(S, -np.diag(S))]: negate entry [i] of row [i]. *)
  Definition negate_diag (S : list (list R)) : list (list R) :=
    map (fun ir : nat * list R => map (fun jt : nat * R => if fst jt =? fst ir then (- snd jt)%R else snd jt)
                                      (combine (seq 0 (length (snd ir))) (snd ir)))
        (combine (seq 0 (length S)) S).
  Definition row_entropy (r : list R) : R := vsum (map (fun p => (- p * ln p)%R) r).
  Definition snd_score (predict_proba : list Row -> list Z -> res (list (list R))) (T : R)
             (X : list Row) (y : list val) (sda : sd_arg) : res R :=
    tp <- target_part X y sda ;;
    let '(m, Xt, sdt) := tp in
    proba <- predict_proba Xt sdt ;;
    let P := map l2 proba in
    let S := map (fun r => map (fun r' => dot r r' / T)%R P) P in
    let S' := map softmax_row (negate_diag S) in
    Ok (sign * mean (map row_entropy S'))%R.

  (** ** DeepEmbeddedValidation, lines 388-479. [train_test_split] is given by the positions [tr], [va] it draws among
      the sources; [tf]: the feature extractor; [clf]: fit of the domain classifier then both columns of its
      predict_proba; [pred]: the estimator's predict_proba; [loss]: the loss, one value per sample (1-D). *)
  Definition np_var (w : list R) : R := (vsum (map (fun t => (t - mean w) * (t - mean w)) w) / (INR (length w) - 1))%R.
  Definition np_cov (u v : list R) : R :=
    (vsum (map2 (fun a b => (a - mean u) * (b - mean v)) u v) / (INR (length u) - 1))%R.
  (** Lines 470-479 for a 1-D [error]: [weights] has shape (n, 1), so the product has shape (n, n), entry (i, j) being
      w_i * e_j; column 0 of the concatenation is w * e_0, column 1 is w * e_1 (or [weights] itself when n = 1). *)
  Definition column (M : list (list R)) (j : nat) : list R := map (fun r => nth j r 0%R) M.
  Definition dev_value (weights error : list R) : R :=
    let weighted_error := map (fun w => map (fun e => (w * e)%R) error) weights in
    let weights_m := map2 (fun r w => r ++ [w]) weighted_error weights in
    let cov := np_cov (column weights_m 0) (column weights_m 1) in
    let var_w := np_var weights in
    let eta := if Reqb var_w 0 then 0%R else (- cov / var_w)%R in
    (mean (concat weighted_error) + eta * mean weights - eta)%R.
  (** The same lines for a loss of shape (n, 1). *)
  Definition dev_value_col (weights error : list R) : R :=
    let weighted_error := map2 Rmult weights error in
    let cov := np_cov weighted_error weights in
    let var_w := np_var weights in
    let eta := if Reqb var_w 0 then 0%R else (- cov / var_w)%R in
    (mean weighted_error + eta * mean weights - eta)%R.

  Definition dev_score {F L} (tr va : list nat) (tf : list Row -> res (list F))
             (clf : list F -> list Z -> res (list F -> res (list (R * R))))
             (pred : list Row -> list Z -> res (list (list R))) (loss : L -> list R -> R)
             (X : list Row) (y : list val) (yl : list L) (sda : sd_arg) : res R :=
    sd <- check_X_y_domain (length X) y sda true all_flags ;;
    m <- extract_source_indices sd ;;
    Xs <- np_select m X ;; ys <- np_select m yl ;; sds <- np_select m sd ;;
    X_train <- np_take tr Xs ;; X_val <- np_take va Xs ;; y_val <- np_take va ys ;; sd_val <- np_take va sds ;;
    Xt <- np_select (map negb m) X ;;
    f_train <- tf X_train ;; f_val <- tf X_val ;; f_target <- tf Xt ;;
    dc <- clf (f_train ++ f_target) (repeat 1%Z (length f_train) ++ repeat 0%Z (length f_target)) ;;
    domain_pred <- dc f_val ;;
    let weights := map (fun p => INR (length f_train) / INR (length f_target) * fst p / snd p)%R domain_pred in
    y_pred <- pred X_val sd_val ;;
    error <- np_map2 loss y_val y_pred ;;
    if length weights =? length error then Ok (sign * dev_value weights error)%R else Err AssertionError.

  (** ** CircularValidation._score, lines 559-648. *)
  Definition val_eqb (u v : val) : bool :=
    match u, v with
    | VNum p, VNum q => Qeq_bool p q | VNan, VNan => true | VInf a, VInf b => Bool.eqb a b | _, _ => false
    end.
  Definition val_ltb (u v : val) : bool :=
    match u, v with
    | VNum p, VNum q => negb (Qle_bool q p)
    | VInf true, VNum _ | VNum _, VInf false | VInf true, VInf false => true
    | _, VNan => negb (is_nan u)
    | _, _ => false
    end.
  Fixpoint dedup (l : list val) : list val :=
    match l with [] => [] | x :: l' => if existsb (val_eqb x) l' then dedup l' else x :: dedup l' end.
  (** LabelEncoder: position among the sorted distinct labels = number of distinct smaller labels. *)
  Definition le_rank (l : list val) (v : val) : Z := Z.of_nat (length (filter (fun u => val_ltb u v) (dedup l))).
  Definition le_transform (l : list val) : list val := map (fun v => VNum (inject_Z (le_rank l v))) l.
  Definition le_inverse (l : list val) (v : val) : res val :=
    match find (fun u => val_eqb v (VNum (inject_Z (le_rank l u)))) l with Some u => Ok u | None => Err ValueError end.

  (** What the backward estimator is fitted on: None in the constant-prediction case (lines 601-613). *)
  Definition circular_backward (predict : list Row -> list Z -> res (list val)) (dt : dtype) (X : list Row) (y : list val)
             (sda : sd_arg) : res (option (list Row * list val * list Z)) :=
    tp <- target_part X y sda ;;
    let '(m, Xt, sdt) := tp in
    sd <- check_X_y_domain (length X) y sda true all_flags ;;
    _ty <- check_y_masking y ;;
    yp <- predict Xt sdt ;;
    if length (dedup yp) =? 1 then Ok None
    else
      ys <- np_select m y ;;
      ty <- find_y_type1 ys ;;
      let yp' := match ty with DISCRETE => le_transform yp | CONTINUOUS => yp end in
      b0 <- np_setmask (map negb m) (map (cast dt) yp') (repeat (VNum 0) (length y)) ;;
      b1 <- np_setmask_scalar m (match ty with DISCRETE => mask_cls | CONTINUOUS => mask_reg end) b0 ;;
      Ok (Some (X, b1, map Z.opp sd)).

  (** The whole score; [fit_backward X y sd]: fitting the copy, then its predict. *)
  Definition circular_score (predict : list Row -> list Z -> res (list val))
             (fit_backward : list Row * list val * list Z -> res (list Row -> list Z -> res (list val)))
             (source_scorer : list val -> list val -> res R) (dt : dtype) (X : list Row) (y : list val) (sda : sd_arg) : res R :=
    tp <- target_part X y sda ;;
    let '(m, Xt, sdt) := tp in
    b <- circular_backward predict dt X y sda ;;
    ys <- np_select m y ;;
    yp <- predict Xt sdt ;;
    match b with
    | None => match yp with
              | v :: _ => s <- source_scorer ys (repeat v (length ys)) ;; Ok (sign * s)%R
              | [] => Err IndexError
              end
    | Some (Xb, yb, sdb) =>
        g <- fit_backward (Xb, yb, sdb) ;;
        Xs <- np_select m X ;; sds <- np_select m sdb ;;
        r <- g Xs sds ;;
        ty <- find_y_type1 ys ;;
        r' <- match ty with DISCRETE => mapM (le_inverse yp) r | CONTINUOUS => Ok r end ;;
        s <- source_scorer ys r' ;; Ok (sign * s)%R
    end.
End Metrics.

(** ** MixValScorer._score, lines 717-797; samples are real vectors, predicted labels integers; [perm]: the permutation
    drawn; [None]: NaN. *)
Section MixVal.
  Variable sign : R.
  Inductive ice_type := IceBoth | IceIntra | IceInter.
  Definition nanmean2 (a b : option R) : option R :=
    match a, b with
    | Some x, Some y => Some ((x + y) / 2)%R | Some x, None | None, Some x => Some x | None, None => None
    end.
  Definition mix_part (scorer : list (list R) -> list Z -> list Z -> res R) (idx : list nat)
             (mix_inputs : list (list R)) (mix_labels : list Z) : res (option R) :=
    match idx with
    | [] => Ok None
    | _ => a <- np_take idx mix_inputs ;; b <- np_take idx mix_labels ;;
           s <- scorer a b (repeat (-1)%Z (length idx)) ;; Ok (Some s)
    end.
  Definition mixval_score (predict : list (list R) -> list Z -> res (list Z))
             (scorer : list (list R) -> list Z -> list Z -> res R) (alpha : R) (ice : ice_type) (perm : list nat)
             (X : list (list R)) (y : list val) (sda : sd_arg) : res (option R) :=
    tp <- target_part (list R) X y sda ;;
    let '(m, Xt, sdt) := tp in
    ty <- find_y_type1 y ;;
    match ty with
    | CONTINUOUS => Err ValueError
    | DISCRETE =>
      labels_a <- predict Xt sdt ;;
      labels_b <- np_take perm labels_a ;;
      eqs <- np_map2 Z.eqb labels_a labels_b ;;
      let same_idx := flatnonzero eqs in
      let diff_idx := flatnonzero (map negb eqs) in
      Xp <- np_take perm Xt ;;
      mix_inputs <- np_map2_rows (fun a b => (alpha * a + (1 - alpha) * b)%R) Xt Xp ;;
      let mix_labels := if Rleb (1 / 2) alpha then labels_a else labels_b in
      ice_same <- (match ice with IceInter => Ok None | _ => mix_part scorer same_idx mix_inputs mix_labels end) ;;
      ice_diff <- (match ice with IceIntra => Ok None | _ => mix_part scorer diff_idx mix_inputs mix_labels end) ;;
      let s := match ice with IceBoth => nanmean2 ice_same ice_diff | IceIntra => ice_same | IceInter => ice_diff end in
      Ok (option_map (fun t => (sign * t)%R) s)
    end.
End MixVal.

(** ** MaNoScorer, lines 800-931. Numpy's power for a non-negative base and a positive exponent. *)
Definition np_pow (x p : R) : R := if Reqb x 0 then 0%R else Rpower x p.

(** Lines 888-890. *)
Definition mano_aggregate (p : R) (proba : list (list R)) : R := np_pow (mean (map (fun t => np_pow t p) (concat proba))) (1 / p).

(** [_stable_softmax], lines 916-922: the result, and the argument as modified in place. *)
Definition stable_softmax (logits : list (list R)) : list (list R) * list (list R) :=
  let logits' := map shift_max logits in (map (fun r => div_sum (map exp r)) logits', logits').

(** [_taylor_softmax], lines 924-931. *)
Definition taylor_row (l : list R) : list R :=
  let t := map (fun x => 1 + x + x * x / 2)%R l in
  div_sum (map (fun x => x - row_min t)%R t).
Definition taylor_softmax (logits : list (list R)) : list (list R) := map taylor_row logits.

(** [_get_criterion], lines 892-901: the criterion, and the logits after the in-place change. *)
Definition mano_criterion (logits : list (list R)) : R * list (list R) :=
  let (proba, logits') := stable_softmax logits in ((- mean (concat (map (map ln) proba)))%R, logits').

(** [_softrun] after [_get_criterion], lines 871-880 and 903-914. *)
Definition mano_proba (threshold : R) (logits : list (list R)) : list (list R) :=
  let (criterion, logits') := mano_criterion logits in
  if Rltb threshold criterion then fst (stable_softmax logits') else taylor_softmax logits'.

(** [_score], lines 851-890; [infer]: a deep model's logits (Some), otherwise predict_proba is used. *)
Definition mano_score (Row : Type) (sign p threshold : R)
           (est : (list Row -> res (list (list R))) + (list Row -> list Z -> res (list (list R))))
           (X : list Row) (y : list val) (sda : sd_arg) : res R :=
  if Rleb p 0 then Err ValueError
  else
    tp <- target_part Row X y sda ;;
    let '(m, Xt, sdt) := tp in
    ty <- find_y_type1 y ;;
    match ty with
    | CONTINUOUS => Err ValueError
    | DISCRETE =>
      proba <- match est with
               | inl infer => l <- infer Xt ;; Ok (mano_proba threshold l)
               | inr pp => pp Xt sdt
               end ;;
      Ok (sign * mano_aggregate p proba)%R
    end.
