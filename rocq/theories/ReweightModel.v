(** Model of /repo/skada/_reweight.py: the weight computations of the reweighting adapters, over the real numbers.
    Density estimators, classifiers, kernels and neighbour searches are external: they are the [Variable]s of the
    section (universally quantified in every theorem). *)
From Coq Require Import String List ZArith Bool Arith Lia Reals Lra.
From Verif Require Import Np Labels UtilsModel SelectModel RVec FWModel.
Import ListNotations.
Local Open Scope nat_scope.
Local Open Scope list_scope.

(** [EPS = np.finfo(float).eps], /repo/skada/_reweight.py line 35. *)
Definition EPS : R := (/ 4503599627370496)%R.

Section Reweight.
  Variable Row : Type.

  (** The common beginning of every [compute_weights] (e.g. lines 130-132): domain check, source positions. *)
  Definition rw_check (X : list Row) (sda : sd_arg) : res (list Z) := check_X_domain (length X) sda all_flags.
  Definition source_positions (sd : list Z) : res (list nat) :=
    m <- extract_source_indices sd ;; Ok (flatnonzero m).

  (** The common end (e.g. lines 143-145): zeros, then the source weights at the source positions. *)
  Definition place_weights (n : nat) (source_idx : list nat) (source_weights : list R) : res (list R) :=
    np_setidx source_idx source_weights (repeat 0%R n).

  (** The two halves used by every [fit] (e.g. lines 117-118). *)
  Definition rw_split (X : list Row) (sda : sd_arg) : res (list Row * list Row) :=
    sd <- rw_check X sda ;;
    parts <- source_target_split [Some X] sd ;;
    match parts with [Some s; Some t] => Ok (s, t) | _ => Err ValueError end.

  (** ** DensityReweightAdapter, lines 79-145. [kde]: fitting a clone of the weight estimator, then its
      [score_samples]. [fexp]: numpy's exp (it may underflow to 0). *)
  Variable kde : list Row -> res (list Row -> res (list R)).
  Variable fexp : R -> R.

  Definition density_fit (X : list Row) (sda : sd_arg) : res ((list Row -> res (list R)) * (list Row -> res (list R))) :=
    st <- rw_split X sda ;;
    es <- kde (fst st) ;; et <- kde (snd st) ;; Ok (es, et).

  (** Lines 135-141. *)
  Definition normalise_or_uniform (w : list R) : list R :=
    if negb (Reqb (mean w) 0) then map (fun t => t / mean w)%R w
    else map (fun _ => 1 / INR (length w))%R w.

  Definition density_weights (est : (list Row -> res (list R)) * (list Row -> res (list R))) (X : list Row) (sda : sd_arg)
    : res (list R) :=
    sd <- rw_check X sda ;;
    source_idx <- source_positions sd ;;
    Xs <- np_take source_idx X ;;
    ws <- fst est Xs ;;
    wt <- snd est Xs ;;
    d <- np_map2 Rminus wt ws ;;
    place_weights (length X) source_idx (normalise_or_uniform (map fexp d)).

  (** ** GaussianReweightAdapter, lines 176-253. [pdf_source], [pdf_target]: the fitted normal densities, row by row.
      A zero source density (an infinity in numpy) is not modelled. *)
  Variables pdf_source pdf_target : Row -> R.

  Definition gaussian_weights (X : list Row) (sda : sd_arg) : res (list R) :=
    sd <- rw_check X sda ;;
    source_idx <- source_positions sd ;;
    Xs <- np_take source_idx X ;;
    w <- np_map2 Rdiv (map pdf_target Xs) (map pdf_source Xs) ;;
    place_weights (length X) source_idx w.

  (** ** DiscriminatorReweightAdapter, lines 297-364. [clf]: fitting a clone of the domain classifier, then the
      column [:, 1] of its [predict_proba]. *)
  Variable clf : list Row -> list Z -> res (list Row -> res (list R)).

  (** [fit], lines 341-349: label 1, and 0 at the source positions. *)
  Definition disc_labels (sd : list Z) : res (list Z) :=
    source_idx <- source_positions sd ;; np_setidx source_idx (repeat 0%Z (length source_idx)) (repeat 1%Z (length sd)).
  Definition disc_fit (X : list Row) (sda : sd_arg) : res (list Row -> res (list R)) :=
    sd <- rw_check X sda ;; y <- disc_labels sd ;; clf X y.

  Definition clip (lo hi t : R) : R := Rmin (Rmax t lo) hi.

  Definition disc_weights (proba1 : list Row -> res (list R)) (X : list Row) (sda : sd_arg) : res (list R) :=
    sd <- rw_check X sda ;;
    source_idx <- source_positions sd ;;
    Xs <- np_take source_idx X ;;
    p <- proba1 Xs ;;
    let q := map (clip EPS 1) p in
    let w := map (fun t => (1 - t) / t)%R q in
    place_weights (length X) source_idx (map (fun t => t / mean w)%R w).

  (** ** KLIEPReweightAdapter, lines 401-579. [kern]: the rbf kernel with the selected gamma. *)
  Definition kernel_matrix (kern : Row -> Row -> R) (X Y : list Row) : list (list R) := map (fun x => map (kern x) Y) X.

  (** [np.mean(b, axis=0)], for a matrix with [k] columns. *)
  Definition col (M : list (list R)) (j : nat) : list R := map (fun r => nth j r 0%R) M.
  Definition col_means (k : nat) (M : list (list R)) : list R := map (fun j => mean (col M j)) (seq 0 k).
  (** [M.T @ v]. *)
  Definition mat_t_vec (k : nat) (M : list (list R)) (v : list R) : list R := map (fun j => dot (col M j) v) (seq 0 k).

  (** The body of the loop, lines 513-516. *)
  Definition kliep_iter (A : list (list R)) (b alpha : list R) : res (list R) :=
    m <- np_matvec A alpha ;;
    a1 <- np_map2 Rplus alpha (vscale EPS (mat_t_vec (length alpha) A (map Rinv m))) ;;
    ba <- np_dot b a1 ;;
    a2 <- np_map2 Rplus a1 (map (fun t => (1 - ba) * t / dot b b)%R b) ;;
    let a3 := map (fun t => if Rltb 0 t then t else 0%R) a2 in
    Ok (map (fun t => t / dot b a3)%R a3).

  (** Line 517. *)
  Definition kliep_obj (A : list (list R)) (alpha : list R) : R := vsum (map (fun t => ln (t + EPS)) (matvec A alpha)).

  (** The loop with its early exit, lines 511-521. *)
  Fixpoint kliep_loop (A : list (list R)) (b : list R) (tol : R) (n : nat) (obj : R) (alpha : list R) : res (list R) :=
    match n with
    | 0 => Ok alpha
    | S n' =>
        alpha' <- kliep_iter A b alpha ;;
        let obj' := kliep_obj A alpha' in
        if Rltb (Rabs (obj' - obj)) tol then Ok alpha' else kliep_loop A b tol n' obj' alpha'
    end.

  (** [_weights_optimization], lines 498-523. [choice]: the indices drawn by the RNG (line 504). *)
  Definition kliep_optim (kern : Row -> Row -> R) (choice : list nat) (n_centers_arg : nat) (tol : R) (max_iter : nat)
             (Xs Xt : list Row) : res (list R * list Row) :=
    let n_centers := Nat.min (length Xt) n_centers_arg in
    centers <- np_take choice Xt ;;
    let A := kernel_matrix kern Xt centers in
    let b := col_means (length centers) (kernel_matrix kern Xs centers) in
    let alpha := repeat 1%R n_centers in
    m <- np_matvec A alpha ;;
    alpha' <- kliep_loop A b tol max_iter (vsum (map ln m)) alpha ;;
    Ok (alpha', centers).

  Definition kliep_fit (kern : Row -> Row -> R) choice n_centers tol max_iter (X : list Row) (sda : sd_arg) :=
    st <- rw_split X sda ;; kliep_optim kern choice n_centers tol max_iter (fst st) (snd st).

  (** [compute_weights], lines 554-565. *)
  Definition kliep_weights (kern : Row -> Row -> R) (fitted : list R * list Row) (X : list Row) (sda : sd_arg) : res (list R) :=
    sd <- rw_check X sda ;;
    source_idx <- source_positions sd ;;
    Xs <- np_take source_idx X ;;
    w <- np_matvec (kernel_matrix kern Xs (snd fitted)) (fst fitted) ;;
    place_weights (length X) source_idx w.

  (** Bandwidths: a number, or the strings "scale" / "auto", or a list of these. [var], [n_features]: of the data. *)
  Inductive gamma := GNum (g : R) | GScale | GAuto.
  Definition auto_scale (n_features : nat) (var : R) (g : gamma) : R :=
    match g with
    | GScale => if negb (Reqb var 0) then (1 / (INR n_features * var))%R else 1%R
    | GAuto => (1 / INR n_features)%R
    | GNum r => r
    end.
  (** The bandwidth part of [fit], lines 486-492: the attribute [gamma] (overwritten when it is a list) and the
      selected bandwidth. [lik]: mean cross-validated log-likelihood of a bandwidth (lines 525-549). *)
  Inductive gamma_attr := GOne (g : gamma) | GList (l : list gamma).
  Definition kliep_select (lik : R -> R) (n_features : nat) (var : R) (g : gamma_attr) : res (gamma_attr * R) :=
    match g with
    | GOne g => Ok (GOne g, auto_scale n_features var g)
    | GList l =>
        let l' := map (auto_scale n_features var) l in
        i <- np_argmax (map lik l') ;;
        Ok (GList (map GNum l'), nth i l' 0%R)
    end.

  (** ** NearestNeighborReweightAdapter, lines 643-818. [nn Xs Xt]: the predictions on [Xt] of the neighbour
      classifier fitted on [Xs] with labels 0, 1, ... (lines 795-798). The classifier fitted in [fit] is never used
      for the weights. *)
  Variable nn : list Row -> list Row -> res (list nat).

  (** [_get_weights], lines 794-803. *)
  Definition nn_get_weights (laplace : bool) (Xs Xt : list Row) : res (list R) :=
    p <- nn Xs Xt ;;
    if forallb (fun i => i <? length Xs) p then
      Ok (map (fun i => (if laplace then 1 else 0) + INR (count_occ Nat.eq_dec p i))%R (seq 0 (length Xs)))
    else Err IndexError.

  (** [compute_weights], lines 805-818. [~source_idx] on the integer array is [- i - 1]. *)
  Definition nn_weights (laplace : bool) (X : list Row) (sda : sd_arg) : res (list R) :=
    sd <- rw_check X sda ;;
    source_idx <- source_positions sd ;;
    Xs <- np_take source_idx X ;;
    Xn <- np_take_z (map (fun i => (- Z.of_nat i - 1)%Z) source_idx) X ;;
    w <- nn_get_weights laplace Xs Xn ;;
    np_setidx source_idx w (repeat 1%R (length X)).

  (** ** KMMReweightAdapter, lines 952-1125, with solver "frank-wolfe" or "scipy". *)
  Variable slsqp : scipy_problem -> (list R -> res R) -> list R -> res (list R * R).

  (** [_weights_optimization], lines 1059-1102. *)
  Definition kmm_eps (eps : option R) (Ns : nat) : R :=
    match eps with Some e => e | None => ((sqrt (INR Ns) - 1) / sqrt (INR Ns))%R end.
  Definition kmm_optim (kern : Row -> Row -> R) (B : R) (eps : option R) (max_iter : nat) (solver : string)
             (Xs Xt : list Row) : res (list R) :=
    let Kss := kernel_matrix kern Xs Xs in
    let Kst := kernel_matrix kern Xs Xt in
    let Ns := length Kss in
    let kappa := map (fun r => INR Ns * mean r)%R Kst in
    let e := kmm_eps eps Ns in
    let A := [repeat 1%R Ns; map Ropp (repeat 1%R Ns)] in
    let b := [(INR Ns * (1 + e))%R; (- INR Ns * (1 - e))%R] in
    r <- qp_solve slsqp Kss (Some (map Ropp kappa)) (Some A) (Some b) None None
           (Some (repeat 0%R Ns)) (Some (map (fun t => t * B)%R (repeat 1%R Ns))) None max_iter solver ;;
    Ok (fst r).

  Definition kmm_fit kern B eps max_iter solver (X : list Row) (sda : sd_arg) : res (list R * list Row) :=
    st <- rw_split X sda ;;
    w <- kmm_optim kern B eps max_iter solver (fst st) (snd st) ;; Ok (w, fst st).

  (** [compute_weights], lines 1104-1125. [rows_eqb] is [np.array_equal]. *)
  Variable rows_eqb : list Row -> list Row -> bool.
  Definition kmm_weights (kern : Row -> Row -> R) (smooth : bool) (fitted : list R * list Row) (X : list Row) (sda : sd_arg)
    : res (list R) :=
    sd <- rw_check X sda ;;
    m <- extract_source_indices sd ;;
    Xs <- np_select m X ;;
    w <- (if rows_eqb (snd fitted) Xs && negb smooth then Ok (fst fitted)
          else np_matvec (kernel_matrix kern Xs (snd fitted)) (fst fitted)) ;;
    place_weights (length X) (flatnonzero m) w.

  (** ** MMDTarSReweightAdapter, lines 1202-1362, for class labels (integers; the regression branch of line 1270 and
      lines 1355-1357 is not modelled). [solve]: the external minimiser on the constraints of lines 1287-1297 (the
      quadratic cost of lines 1256-1282 is part of the oracle). *)
  Definition indicator (ys : list Z) (classes : list Z) : list (list R) :=
    map (fun y => map (fun c => if Z.eqb y c then 1%R else 0%R) classes) ys.
  Definition col_sums (k : nat) (M : list (list R)) : list R := map (fun j => vsum (col M j)) (seq 0 k).

  (** Lines 1284-1297. *)
  Definition tars_problem (Rm : list (list R)) (k : nat) : scipy_problem :=
    let m := length Rm in
    let eps := (10 / (4 * sqrt (INR m)))%R in
    let s := col_sums k Rm in
    let A := map (map Ropp) Rm ++ [map Ropp s] ++ Rm ++ [s] in
    let b := repeat 0%R m ++ [(- (INR m * (1 - eps)))%R] ++ map (fun t => 10 * t)%R (repeat 1%R m) ++ [(INR m * (1 + eps))%R] in
    scipy_build (Some A) (Some b) None None None None.

  Record tars_state := mkTars { ts_X : list Row; ts_weights : list R; ts_alpha : list R; ts_classes : list Z }.

  Variable solve : list Row -> list Row -> list Z -> scipy_problem -> res (list R).
  (** [fit], lines 1306-1333. *)
  Definition tars_fit (X : list Row) (y : list Z) (sda : sd_arg) : res tars_state :=
    sd <- rw_check X sda ;;
    parts <- source_target_split [Some X] sd ;;
    yparts <- source_target_split [Some y] sd ;;
    match parts, yparts with
    | [Some Xs; Some Xt], [Some ys; Some _] =>
        let classes := unique ys in
        let Rm := indicator ys classes in
        alpha <- solve Xs Xt ys (tars_problem Rm (length classes)) ;;
        w <- np_matvec Rm alpha ;;
        Ok (mkTars Xs w alpha classes)
    | _, _ => Err ValueError
    end.

  (** [compute_weights], lines 1335-1362. *)
  Definition tars_weights (st : tars_state) (X : list Row) (y : list Z) (sda : sd_arg) : res (list R) :=
    sd <- check_X_y_domain (length X) (map (fun z => VNum (QArith_base.inject_Z z)) y) sda true all_flags ;;
    m <- extract_source_indices sd ;;
    Xs <- np_select m X ;;
    w <- (if rows_eqb (ts_X st) Xs then Ok (ts_weights st)
          else ys <- np_select m y ;; np_matvec (indicator ys (ts_classes st)) (ts_alpha st)) ;;
    w' <- place_weights (length X) (flatnonzero m) w ;;
    Ok (map (fun t => t + / 10000000000000)%R w').

  (** ** BaseReweightAdapter.fit_transform, lines 54-76: X unchanged, the weights as a parameter. *)
  Definition rw_fit_transform {S} (fit : list Row -> sd_arg -> res S) (weights : S -> list Row -> sd_arg -> res (list R))
             (X : list Row) (sda : sd_arg) : res (list Row * list R) :=
    st <- fit X sda ;; w <- weights st X sda ;; Ok (X, w).
End Reweight.
