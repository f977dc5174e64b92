(** Model of the cross-validation of KLIEPReweightAdapter and of MMDTarSReweightAdapter with continuous labels
    (/repo/skada/_reweight.py). Continues ReweightModel; floating point numbers are reals. *)
From Coq Require Import List ZArith Bool Arith Lia Reals.
From Verif Require Import Np Labels UtilsModel RVec FWModel SelectModel ReweightModel.
Import ListNotations.
Local Open Scope nat_scope.

(** sklearn's KFold(k).split of n samples, without shuffling (external; [check_cv(k)], line 535): the first [n mod k] folds have
    one more sample, each test fold is contiguous and the training fold is the rest, in order. KFold(1) is refused by its
    constructor, more folds than samples by [split]. *)
Fixpoint fold_from (n : nat) (start : nat) (sizes : list nat) : list (list nat * list nat) :=
  match sizes with
  | [] => []
  | s :: sizes' => (seq 0 start ++ seq (start + s) (n - (start + s)), seq start s) :: fold_from n (start + s) sizes'
  end.
Definition kfold (n k : nat) : res (list (list nat * list nat)) :=
  if k <=? 1 then Err ValueError
  else if n <? k then Err ValueError
  else Ok (fold_from n 0 (map (fun i => if i <? n mod k then S (n / k) else n / k) (seq 0 k))).

Section Kliep.
  Context {Row : Type}.
  (** The rbf kernel of a bandwidth; the indices of the centres drawn for a bandwidth and a fold (line 504). *)
  Variable kern : R -> Row -> Row -> R.
  Variable choose : R -> nat -> list nat.
  Variables (n_centers max_iter : nat) (tol : R).

  (** The body of the inner loop, lines 539-548: [j] the number of the fold. *)
  Definition fold_lik (g : R) (Xs Xt : list Row) (j : nat) (fold : list nat * list nat) : res R :=
    Xtr <- np_take (fst fold) Xt ;;
    p <- kliep_optim Row (kern g) (choose g j) n_centers tol max_iter Xs Xtr ;;
    Xte <- np_take (snd fold) Xt ;;
    w <- np_matvec (kernel_matrix Row (kern g) Xte (snd p)) (fst p) ;;
    Ok (mean (map (fun t => ln (t + EPS)) w)).

  (** [_likelihood_cross_validation], lines 525-552, for [cv] an integer. The shuffled [index] of lines 532-534 is never used
      (with a RandomState object it only advances its state: the draws are arbitrary here). *)
  Definition cross_validation (cv : nat) (gammas : list R) (Xs Xt : list Row) : res R :=
    liks <- mapM (fun g => folds <- kfold (length Xt) cv ;;
                           l <- mapM (fun p => fold_lik g Xs Xt (fst p) (snd p)) (combine (seq 0 (length folds)) folds) ;;
                           Ok (mean l)) gammas ;;
    i <- np_argmax liks ;;
    Ok (nth i gammas 0%R).

  (** [fit] with a list of bandwidths (numbers), lines 484-496; [final]: the draw of the last optimisation. *)
  Definition kliep_cv_fit (final : list nat) (cv : nat) (gammas : list R) (X : list Row) (sda : sd_arg) : res (R * (list R * list Row)) :=
    st <- rw_split Row X sda ;;
    g <- cross_validation cv gammas (fst st) (snd st) ;;
    p <- kliep_optim Row (kern g) final n_centers tol max_iter (fst st) (snd st) ;;
    Ok (g, p).
End Kliep.

Section TarS.
  Context {Row : Type}.
  (** [pairwise_kernels] on the labels; [np.linalg.inv(L + reg * np.eye(m))] as rows; the solver of line 1299 (its quadratic cost is part of
      the oracle); [pairwise_distances]; [np.array_equal]. *)
  Variable label_kernel : R -> R -> R.
  Variable reg_inv : list R -> list (list R).
  Variable solve : list Row -> list Row -> list R -> scipy_problem -> res (list R).
  Variable dist : Row -> Row -> R.
  Variable rows_eqb : list Row -> list Row -> bool.

  (** The matrix R of line 1270: row i is the kernel row of label i times the inverse. *)
  Definition smoother (ys : list R) : list (list R) :=
    let G := reg_inv ys in map (fun y => mat_t_vec (length ys) G (map (label_kernel y) ys)) ys.

  Record tarsc_state := mkTC { tc_X : list Row; tc_weights : list R; tc_alpha : list R }.

  (** [fit], lines 1306-1333 with lines 1251-1304, when the labels are continuous. [y] are all the labels; those of the targets are not
      looked at. *)
  Definition tarsc_fit (X : list Row) (y : list R) (sda : sd_arg) : res tarsc_state :=
    sd <- rw_check Row X sda ;;
    parts <- source_target_split [Some X] sd ;;
    yparts <- source_target_split [Some y] sd ;;
    match parts, yparts with
    | [Some Xs; Some Xt], [Some ys; Some _] =>
        alpha <- solve Xs Xt ys (tars_problem (smoother ys) (length ys)) ;;
        w <- np_matvec (smoother ys) alpha ;;
        Ok (mkTC Xs w alpha)
    | _, _ => Err ValueError
    end.

  (** [compute_weights], lines 1335-1362: one label per sample is asked for, but the labels are not used. *)
  Definition tarsc_weights (st : tarsc_state) (X : list Row) (y : list R) (sd : list Z) : res (list R) :=
    _ <- (if length y =? length X then Ok tt else Err ValueError) ;;
    m <- extract_source_indices sd ;;
    Xs <- np_select m X ;;
    w <- (if rows_eqb (tc_X st) Xs then Ok (tc_weights st)
          else idx <- mapM (fun x => np_argmin (map (dist x) (tc_X st))) Xs ;; np_take idx (tc_weights st)) ;;
    w' <- place_weights (length X) (flatnonzero m) w ;;
    Ok (map (fun t => t + / 10000000000000)%R w').
End TarS.
