(** Specification vocabulary for the subspace adapters. Sums are [sigma] (MapSpec): sigma k f = f 0 + ... + f (k-1).
    A data matrix [X i j]: sample i, feature j; a projection matrix [W j c]: feature j, component c. *)
From Coq Require Import List ZArith Bool Arith Reals Permutation.
From Verif Require Import MapSpec.
Import ListNotations.
Local Open Scope nat_scope.

(** ** Contracts of numerical routines *)
(** The only solution of A v = 0 is 0. *)
Definition nonsingular (n : nat) (A : nat -> nat -> R) : Prop :=
  forall v, (forall i, i < n -> sigma n (fun j => A i j * v j)%R = 0%R) -> forall j, j < n -> v j = 0%R.
(** [solve n A B] is X with A X = B, for nonsingular A. *)
Definition linear_solver (solve : nat -> (nat -> nat -> R) -> (nat -> nat -> R) -> nat -> nat -> R) : Prop :=
  forall n A B, nonsingular n A -> forall i j, i < n -> j < n -> sigma n (fun l => A i l * solve n A B l j)%R = B i j.
(** The matrix numpy's eigh decomposes: it only reads the lower triangle. *)
Definition lower (M : nat -> nat -> R) : nat -> nat -> R := fun i j => if j <=? i then M i j else M j i.
Definition eigh_contract (eigh : nat -> (nat -> nat -> R) -> (nat -> R) * (nat -> nat -> R)) : Prop :=
  forall n M, diagonalises n (lower M) (eigh n M).
(** Indices in the order of increasing values. *)
Definition argsort_contract (argsort : nat -> (nat -> R) -> list nat) : Prop :=
  forall n f, Permutation (argsort n f) (seq 0 n) /\
    forall a b, a <= b -> b < n -> (f (nth a (argsort n f) 0%nat) <= f (nth b (argsort n f) 0%nat))%R.
(** Columns of a d-by-k matrix are orthonormal. *)
Definition orthonormal_columns (d k : nat) (W : nat -> nat -> R) : Prop :=
  forall a b, a < k -> b < k -> sigma d (fun j => W j a * W j b)%R = (if a =? b then 1%R else 0%R).
Definition orthonormal_rows (k d : nat) (P : nat -> nat -> R) : Prop :=
  forall a b, a < k -> b < k -> sigma d (fun j => P a j * P b j)%R = (if a =? b then 1%R else 0%R).

(** ** Subspace alignment: squared Frobenius distance of two d-by-k matrices *)
Definition frob_dist (d k : nat) (A B : nat -> nat -> R) : R :=
  sigma d (fun i => sigma k (fun j => (A i j - B i j) * (A i j - B i j)))%R.

(** ** Transfer component analysis. The [ns] source samples come first, then the [nt] target samples. Coefficients v define
    the component z_i = sum_j K_ij v_j. *)
Definition score_of (n : nat) (K : nat -> nat -> R) (v : nat -> R) (i : nat) : R := sigma n (fun j => K i j * v j)%R.
Definition average (n : nat) (z : nat -> R) : R := (sigma n z / INR n)%R.
(** What the method maximises: the scatter of the component over all samples. *)
Definition scatter (n : nat) (K : nat -> nat -> R) (v : nat -> R) : R :=
  let z := score_of n K v in sigma n (fun i => (z i - average n z) * (z i - average n z))%R.
(** Difference of the domain means of the component. *)
Definition domain_gap (ns nt : nat) (K : nat -> nat -> R) (v : nat -> R) : R :=
  let z := score_of (ns + nt) K v in (average ns z - average nt (fun i => z (ns + i)%nat))%R.
Definition norm2 (n : nat) (v : nat -> R) : R := sigma n (fun i => v i * v i)%R.
(** What it divides by: squared norm of the coefficients plus mu times the squared gap. *)
Definition tca_cost (ns nt : nat) (mu : R) (K : nat -> nat -> R) (v : nat -> R) : R :=
  (norm2 (ns + nt)%nat v + mu * (domain_gap ns nt K v * domain_gap ns nt K v))%R.
(** [v] maximises scatter / cost among all coefficient vectors. *)
Definition best_component (ns nt : nat) (mu : R) (K : nat -> nat -> R) (v : nat -> R) : Prop :=
  forall u, (scatter (ns + nt)%nat K u * tca_cost ns nt mu K v <= scatter (ns + nt)%nat K v * tca_cost ns nt mu K u)%R.

(** ** Transfer subspace learning. *)
Definition projected (d : nat) (X W : nat -> nat -> R) : nat -> nat -> R := fun i c => sigma d (fun j => X i j * W j c)%R.
(** Variance of the k components of n samples, summed. *)
Definition total_var (n k : nat) (Z : nat -> nat -> R) : R := sigma k (fun c => cov_of n Z c c).
Definition sq_dist (k : nat) (x y : nat -> R) : R := sigma k (fun c => (x c - y c) * (x c - y c))%R.
(** Mean of a class, and its size. *)
Definition size_of (n : nat) (y : nat -> Z) (c : Z) : R := sigma n (fun i => if Z.eqb (y i) c then 1%R else 0%R).
Definition mean_in (n : nat) (y : nat -> Z) (Z' : nat -> nat -> R) (c : Z) (j : nat) : R :=
  (sigma n (fun i => if Z.eqb (y i) c then Z' i j else 0%R) / size_of n y c)%R.
(** Sum over the samples of the squared distance to the mean of their class: what Fisher's criterion wants small. *)
Definition within_scatter (n k : nat) (y : nat -> Z) (Z' : nat -> nat -> R) : R :=
  sigma n (fun i => sq_dist k (Z' i) (mean_in n y Z' (y i))).
(** Sum over the samples of the squared distance between the mean of their class and the overall mean: wanted large. *)
Definition between_scatter (n k : nat) (y : nat -> Z) (Z' : nat -> nat -> R) : R :=
  sigma n (fun i => sq_dist k (mean_in n y Z' (y i)) (mean_of n Z')).
(** Weighted spread of same-class pairs, nearby pairs weighing more: what locality preserving projections keep small. *)
Definition locality (n d k : nat) (scale : R) (X : nat -> nat -> R) (y : nat -> Z) (Z' : nat -> nat -> R) : R :=
  sigma n (fun i => sigma n (fun j =>
    if Z.eqb (y i) (y j) then exp (- sqrt (sq_dist d (X i) (X j)) / scale) * sq_dist k (Z' i) (Z' j) else 0))%R.

(** ** More contracts *)
(** The result only depends on the entries below the size. *)
Definition entrywise (f : nat -> (nat -> nat -> R) -> nat -> nat -> R) : Prop :=
  forall k A B, (forall i j, i < k -> j < k -> A i j = B i j) -> forall i j, i < k -> j < k -> f k A i j = f k B i j.
Definition inverse_contract (inv : nat -> (nat -> nat -> R) -> nat -> nat -> R) : Prop :=
  forall k A, nonsingular k A -> forall i j, i < k -> j < k -> sigma k (fun l => A i l * inv k A l j)%R = (if i =? j then 1%R else 0%R).
(** The lower triangular L with positive diagonal and L L^T = A, for a symmetric positive definite A. *)
Definition cholesky_contract (chol : nat -> (nat -> nat -> R) -> nat -> nat -> R) : Prop :=
  forall k A, (forall i j, i < k -> j < k -> A i j = A j i) -> pos_def k A ->
    (forall i j, i < k -> j < k -> sigma k (fun l => chol k A i l * chol k A j l)%R = A i j) /\
    (forall i j, i < k -> j < k -> i < j -> chol k A i j = 0%R) /\
    (forall i, i < k -> (0 < chol k A i i)%R).
Definition qr_contract (qr : nat -> nat -> (nat -> nat -> R) -> nat -> nat -> R) : Prop :=
  forall d k W, k <= d -> orthonormal_columns d k (qr d k W).
