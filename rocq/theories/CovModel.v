(** Model of [_estimate_covariance] (/repo/skada/_utils.py lines 42-56), used by CORAL and by the Gaussian reweighting adapter,
    and of that adapter's fit and weights (/repo/skada/_reweight.py lines 209-253) with matrices as functions of two indices
    (see MapModel). Floating point numbers are reals. *)
From Coq Require Import String List ZArith Bool Arith Lia Reals Lra.
From Verif Require Import Np RVec UtilsModel SelectModel ReweightModel MapModel.
Import ListNotations.
Local Open Scope nat_scope.
Local Open Scope list_scope.

(** The [shrinkage] argument ([reg] of the adapters): None, "auto", a number, or anything else. *)
Inductive shrinkage := ShNone | ShAuto | ShNum (s : R) | ShOther.

Section Cov.
  (** The shrinkage intensity computed by sklearn's ledoit_wolf (external), of an m-by-n matrix centred by it. *)
  Variable lw : nat -> nat -> mat -> R.

  (** sklearn's shrunk_covariance (external), for an n-by-n matrix: a number outside [0, 1] is refused by its parameter
      validation (a subclass of ValueError). *)
  Definition shrink (n : nat) (s : R) (C : mat) : mat :=
    let mu := (msum n (fun i => C i i) / INR n)%R in
    fun j l => ((1 - s) * C j l + (if j =? l then s * mu else 0))%R.
  Definition shrunk_covariance (n : nat) (s : R) (C : mat) : res mat :=
    if Rleb 0 s && Rleb s 1 then Ok (shrink n s C) else Err ValueError.

  (** sklearn's ledoit_wolf with its default assume_centered=False (external): it centres the data itself. *)
  Definition centred (m : nat) (X : mat) : mat := fun i j => (X i j - col_mean m X j)%R.
  Definition ledoit_wolf (n m : nat) (X : mat) : mat :=
    shrink n (lw n m (centred m X)) (emp_cov false m X).

  (** sklearn's StandardScaler (external): the standard deviations, 1 for a constant column. (sklearn also treats columns that
      are constant up to rounding as constant.) *)
  Definition scale_ (m : nat) (X : mat) : nat -> R := fun j =>
    let v := emp_cov false m X j j in if Reqb v 0 then 1%R else sqrt v.
  Definition standard_scaler (with_mean : bool) (m : nat) (X : mat) : mat := fun i j =>
    ((if with_mean then X i j - col_mean m X j else X i j) / scale_ m X j)%R.

  (** [_estimate_covariance], lines 42-56, of an m-by-n matrix; any other value leaves [s] unbound. *)
  Definition estimate_covariance (n m : nat) (X : mat) (sh : shrinkage) (assume_centered : bool) : res mat :=
    match sh with
    | ShNone => Ok (emp_cov assume_centered m X)
    | ShAuto =>
        let sc := scale_ m X in
        let X' := standard_scaler (negb assume_centered) m X in
        let s := ledoit_wolf n m X' in
        Ok (fun j l => (sc j * s j l * sc l)%R)
    | ShNum r => shrunk_covariance n r (emp_cov assume_centered m X)
    | ShOther => Err UnboundLocalError
    end.

  (** CORALAdapter.fit, _mapping.py lines 867-877, for [ms] source and [mt] target rows of [n] features: the linear map
      (inverse square root of the source estimate, then square root of the target estimate). *)
  Definition coral_fit (eigh : mat -> (nat -> R) * mat) (n ms mt : nat) (Xs Xt : mat) (reg : shrinkage) (assume_centered : bool)
    : res mat :=
    cs <- estimate_covariance n ms Xs reg assume_centered ;;
    ct <- estimate_covariance n mt Xt reg assume_centered ;;
    Ok (mmul n (invsqrtm eigh n cs) (sqrtm eigh n ct)).

  (** ** GaussianReweightAdapter. [pdf n x mean cov]: scipy's multivariate normal density. *)
  Variable pdf : nat -> (nat -> R) -> (nat -> R) -> mat -> R.
  Record gauss := mkG { g_mean_s : nat -> R; g_cov_s : mat; g_mean_t : nat -> R; g_cov_t : mat }.
  (** [fit], lines 230-237, after the split into [ms] source rows and [mt] target rows of [n] features. *)
  Definition gauss_fit (n ms mt : nat) (Xs Xt : mat) (reg : shrinkage) : res gauss :=
    cs <- estimate_covariance n ms Xs reg false ;;
    ct <- estimate_covariance n mt Xt reg false ;;
    Ok (mkG (col_mean ms Xs) cs (col_mean mt Xt) ct).
  (** [compute_weights], lines 239-253: gaussian_weights of ReweightModel with the two fitted densities. *)
  Definition gauss_weights (n : nat) (g : gauss) (X : list (nat -> R)) (sda : sd_arg) : res (list R) :=
    gaussian_weights (nat -> R) (fun x => pdf n x (g_mean_s g) (g_cov_s g)) (fun x => pdf n x (g_mean_t g) (g_cov_t g)) X sda.
End Cov.
