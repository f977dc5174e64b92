(** Specification vocabulary for the mapping and subspace adapters. *)
From Coq Require Import List ZArith QArith Bool Arith Lia Reals Lra.
From Verif Require Import Np Labels Spec UtilsModel UtilsSpec RVec.
Import ListNotations.
Local Open Scope nat_scope.

(** The domain labels given with [n] samples are usable: one per sample, and no source sample unless sources are allowed. *)
Definition usable (allow_source : bool) (n : nat) (sda : sd_arg) : Prop :=
  0 < n /\ length (eff_domain n sda) = n /\ (allow_source = false -> ~ some_label is_source (eff_domain n sda)).

(** A two-dimensional array with at least one column, integer dtype meaning integer contents. *)
Definition table (X : arr) : Prop := 0 < prod_tail (a_tail X) /\ wf_arr X.

(** The source half and the target half of an array. *)
Definition half (p : Z -> bool) (sd : list Z) (X : arr) : arr := mkArr (a_dt X) (a_tail X) (rows_of p sd (a_rows X)).

(** [f x] for the source samples, [g x] for the target samples, in the order of the samples. *)
Definition by_side {A B} (f g : A -> B) (sd : list Z) (xs : list A) : list B :=
  map (fun p => if is_source (fst p) then f (snd p) else g (snd p)) (combine sd xs).

(** A fitted transformer maps an array row by row with [f], to floats of shape [tl]. *)
Definition row_by_row (t : arr -> res arr) (f : list val -> list val) (tl : list nat) : Prop :=
  forall a, t a = Ok (mkArr DFloat tl (map f (a_rows a))).

(** Every source sample comes before every target sample. *)
Definition sources_first (sd : list Z) : Prop :=
  exists a b, sd = a ++ b /\ Forall (fun d => is_source d = true) a /\ Forall (fun d => is_target d = true) b.

(** Image of one sample by a kernel projection: the inner products of its kernel vector against the reference samples with
    every column of the projection. *)
Definition kernel_image {Row} (kern : Row -> Row -> R) (basis : list Row) (V : list (list R)) (x : Row) : list R :=
  map (fun v => dot (map (kern x) basis) v) V.

(** Relative change of two consecutive objective values. *)
Definition rel_change (a b : R) : R := (Rabs (a - b) / Rabs a)%R.

(** The quadratic form of a matrix. *)
Definition quad (M : list (list R)) (f : list R) : R := dot f (matvec M f).

(** ** Covariances. A data matrix [X i j]: sample i, feature j; sums over the first k indices. *)
Fixpoint sigma (k : nat) (f : nat -> R) : R := match k with 0 => 0%R | S k' => (sigma k' f + f k')%R end.
Definition mean_of (m : nat) (X : nat -> nat -> R) (j : nat) : R := (sigma m (fun i => X i j) / INR m)%R.
Definition cov_of (m : nat) (X : nat -> nat -> R) (j l : nat) : R :=
  (sigma m (fun i => (X i j - mean_of m X j) * (X i l - mean_of m X l)) / INR m)%R.
Definition moment_of (m : nat) (X : nat -> nat -> R) (j l : nat) : R := (sigma m (fun i => X i j * X i l) / INR m)%R.
(** A symmetric matrix and its quadratic form is positive away from zero. *)
Definition pos_def (n : nat) (C : nat -> nat -> R) : Prop :=
  forall v : nat -> R, (exists i, i < n /\ v i <> 0%R) -> (0 < sigma n (fun i => sigma n (fun j => v i * C i j * v j)))%R.
(** [(w, V)] diagonalises [C] in an orthonormal basis, the columns of V. *)
Definition diagonalises (n : nat) (C : nat -> nat -> R) (wV : (nat -> R) * (nat -> nat -> R)) : Prop :=
  let (w, V) := wV in forall i j, i < n -> j < n ->
    C i j = sigma n (fun k => V i k * w k * V j k)%R /\
    sigma n (fun k => V k i * V k j)%R = (if i =? j then 1%R else 0%R) /\
    sigma n (fun k => V i k * V j k)%R = (if i =? j then 1%R else 0%R).
(** A correct symmetric eigensolver. *)
Definition eigensolver (n : nat) (eigh : (nat -> nat -> R) -> (nat -> R) * (nat -> nat -> R)) : Prop :=
  forall C, (forall i j, C i j = C j i) -> diagonalises n C (eigh C).
