(** Specification vocabulary for covariance estimates and Gaussian weights. *)
From Coq Require Import List ZArith Bool Arith Reals.
From Verif Require Import Np Spec RVec MapModel MapSpec.
Import ListNotations.
Local Open Scope nat_scope.

Definition symmetric (n : nat) (C : mat) : Prop := forall i j, i < n -> j < n -> C i j = C j i.
Definition pos_semidef (n : nat) (C : mat) : Prop :=
  forall v : nat -> R, (0 <= sigma n (fun i => sigma n (fun j => v i * C i j * v j)))%R.
(** The mean of the variances. *)
Definition mean_variance (n m : nat) (X : mat) : R := (sigma n (fun j => cov_of m X j j) / INR n)%R.
(** The same data moved by [t]. *)
Definition moved (t : nat -> R) (X : mat) : mat := fun i j => (X i j + t j)%R.
(** The intensity is a number between 0 and 1. *)
Definition intensity (lw : nat -> nat -> mat -> R) : Prop := forall n m X, (0 <= lw n m X <= 1)%R.
(** An external function of a matrix looks at the entries of the first m rows and n columns only. *)
Definition entries_only (lw : nat -> nat -> mat -> R) : Prop :=
  forall n m X X', (forall i j, i < m -> j < n -> X i j = X' i j) -> lw n m X = lw n m X'.
(** A Gaussian density: positive, and a function of the first n entries of the difference to the mean and of the covariance. *)
Definition gaussian_density (pdf : nat -> (nat -> R) -> (nat -> R) -> mat -> R) : Prop :=
  forall n x m C x' m' C', (forall j, j < n -> (x j - m j = x' j - m' j)%R) -> (forall j l, j < n -> l < n -> C j l = C' j l) ->
    pdf n x m C = pdf n x' m' C'.
(** The same data in other units: feature j multiplied by [d j] > 0. *)
Definition units (n : nat) (d : nat -> R) : Prop := forall j, j < n -> (0 < d j)%R.
Definition in_units (d : nat -> R) (X : mat) : mat := fun i j => (d j * X i j)%R.
(** A change of units multiplies a density by a positive constant (the Jacobian). *)
Definition density_units (pdf : nat -> (nat -> R) -> (nat -> R) -> mat -> R) : Prop :=
  forall n d, units n d -> exists k, (0 < k)%R /\ forall x m C,
    pdf n (fun j => (d j * x j)%R) (fun j => (d j * m j)%R) (fun j l => (d j * C j l * d l)%R) = (k * pdf n x m C)%R.
(** No feature is constant. *)
Definition all_vary (n m : nat) (X : mat) : Prop := forall j, j < n -> cov_of m X j j <> 0%R.
