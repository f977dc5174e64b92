(** GaussianReweightAdapter.compute_weights, /repo/skada/_reweight.py lines 239-253, with the refusal of scipy's density of singular covariances (CovModel
    and ReweightModel take the densities for granted). *)
From Coq Require Import List ZArith Bool Arith Reals.
From Verif Require Import Np RVec UtilsModel SelectModel ReweightModel MapModel CovModel.
Import ListNotations.
Local Open Scope nat_scope.

Section Single.
  (** scipy.stats.multivariate_normal.pdf (external) with its default allow_singular=False: [regular n C]: all eigenvalues of C are numerically positive;
      otherwise numpy.linalg.LinAlgError, a subclass of ValueError. *)
  Variable pdf : nat -> (nat -> R) -> (nat -> R) -> mat -> R.
  Variable regular : nat -> mat -> bool.
  Definition mvn_pdf (n : nat) (rows : list (nat -> R)) (mean : nat -> R) (cov : mat) : res (list R) :=
    if regular n cov then Ok (map (fun x => pdf n x mean cov) rows) else Err ValueError.
  (** Lines 241-253. *)
  Definition gauss_compute (n : nat) (g : gauss) (X : list (nat -> R)) (sda : sd_arg) : res (list R) :=
    sd <- rw_check (nat -> R) X sda ;;
    source_idx <- source_positions sd ;;
    Xs <- np_take source_idx X ;;
    t <- mvn_pdf n Xs (g_mean_t g) (g_cov_t g) ;;
    s <- mvn_pdf n Xs (g_mean_s g) (g_cov_s g) ;;
    w <- np_map2 Rdiv t s ;;
    place_weights (length X) source_idx w.
End Single.
