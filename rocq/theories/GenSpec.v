(** Specification vocabulary for the synthetic data sets (C72, C111-C116): what the random generator promises. *)
From Coq Require Import List ZArith Bool Arith Lia Reals Lra.
From Verif Require Import Np Labels RVec LossSpec GenModel.
Import ListNotations.
Local Open Scope nat_scope.

Section Promises.
  Context {Gen : Type}.
  (** [n] numbers in [0, 1). *)
  Definition rand_ok (rand : nat -> Gen -> list R * Gen) : Prop := forall n g, length (fst (rand n g)) = n /\ forall x, In x (fst (rand n g)) -> (0 <= x < 1)%R.
  (** [n] rows of two entries. *)
  Definition randn_ok (randn : nat -> Gen -> list (list R) * Gen) : Prop := forall n g, length (fst (randn n g)) = n /\ rect 2 (fst (randn n g)).
  (** [k] distinct positions below [n]; possible whenever [k <= n], with weights if they are positive and sum to one. *)
  Definition choice_ok (choice : nat -> nat -> option (list R) -> Gen -> res (list nat * Gen)) : Prop :=
    (forall n k p g idx g', choice n k p g = Ok (idx, g') -> length idx = k /\ NoDup idx /\ forall i, In i idx -> i < n) /\
    (forall n k g, k <= n -> exists r, choice n k None g = Ok r) /\
    (forall n k g, n < k -> choice n k None g = Err ValueError) /\
    (forall n k p g, k <= n -> length p = n -> (forall x, In x p -> 0 < x)%R -> vsum p = 1%R -> exists r, choice n k (Some p) g = Ok r).
  (** [n] rows of [d] entries for every scale that is not negative. *)
  Definition normal_ok (normal : R -> nat -> nat -> Gen -> res (list (list R) * Gen)) : Prop :=
    (forall s n d g X g', normal s n d g = Ok (X, g') -> length X = n /\ rect d X) /\
    (forall s n d g, (0 <= s)%R -> exists r, normal s n d g = Ok r).
  Definition cluster_ok (cluster : list R -> nat -> Gen -> list (list R) * Gen) : Prop := forall c n g, length (fst (cluster c n g)) = n /\ rect 2 (fst (cluster c n g)).
  (** [n] standard normal draws, mapped to mean (m1, m2) by the symmetric matrix (s11 s12; s12 s22). *)
  Definition gaussian_block (randn : nat -> Gen -> list (list R) * Gen) (n : nat) (m1 m2 s11 s12 s22 : R) (B : list (list R)) : Prop :=
    exists g, B = map (fun z => [m1 + s11 * nth 0 z 0 + s12 * nth 1 z 0; m2 + s12 * nth 0 z 0 + s22 * nth 1 z 0]%R) (fst (randn n g)).
End Promises.

(** Arguments the documentation allows: a known label and shift; density parameters of the right dimension. *)
Definition good_args (shift : shift_kind) (label : label_kind) (params : reg_params) (ratio : R) : Prop :=
  label <> OtherLabel /\ shift <> OtherShift /\ (shift = TargetShift -> 0 <= ratio <= 1)%R /\
  match label, params with Regression, RScalar _ _ => False | Regression, RMatrix _ _ => shift <> Subspace | _, _ => True end.
Definition good_noise (noise : noise_arg) : Prop :=
  match noise with NNone => True | NReal s => (0 <= s)%R | NSeq l => exists s0 s1 r, l = s0 :: s1 :: r /\ (0 <= s0)%R /\ (0 <= s1)%R end.
(** Rows per requested sample: eight clusters' worth, four for 'subspace'. *)
Definition per_sample (shift : shift_kind) : nat := match shift with Subspace => 4 | _ => 8 end.
(** Number of samples of class [k]. *)
Definition class_size (k : nat) (y : list val) : nat := length (filter (fun v => val_eqb_q v (QArith_base.inject_Z (Z.of_nat k))) y).
(** Mean and variance of a feature. *)
Definition feature_mean (X : list (list R)) (j : nat) : R := (vsum (map (fun r => nth j r 0%R) X) / INR (length X))%R.
Definition feature_var (X : list (list R)) (j : nat) : R := (vsum (map (fun r => (nth j r 0 - feature_mean X j) ^ 2)%R X) / INR (length X))%R.
