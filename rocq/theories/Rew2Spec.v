(** Specification vocabulary for the cross-validation of KLIEP and for nearest-neighbour weights. *)
From Coq Require Import List ZArith Bool Arith Reals Permutation.
From Verif Require Import Np Spec RVec.
Import ListNotations.
Local Open Scope nat_scope.

(** The samples at the given positions. *)
Definition rows_at {A} (idx : list nat) (xs ys : list A) : Prop := Forall2 (fun i y => nth_error xs i = Some y) idx ys.
(** [folds] splits n samples into training and test positions, [k] times: every sample is tested exactly once, is trained on in all the
    other folds, and the test folds have n/k or n/k+1 samples. *)
Definition k_fold_split (n k : nat) (folds : list (list nat * list nat)) : Prop :=
  length folds = k /\ Permutation (concat (map snd folds)) (seq 0 n) /\
  Forall (fun f => Permutation (fst f ++ snd f) (seq 0 n)) folds /\
  Forall (fun f => length (snd f) = n / k \/ length (snd f) = S (n / k)) folds.
(** Mean of [f] over a list. *)
Definition mean_over {A} (f : A -> R) (l : list A) : R := (fold_right (fun a s => f a + s) 0 l / INR (length l))%R.
(** [i] is the first position of a largest element. *)
Definition first_largest (l : list R) (i : nat) : Prop :=
  i < length l /\ (forall j, j < length l -> (nth j l 0 <= nth i l 0)%R) /\ (forall j, j < i -> (nth j l 0 < nth i l 0)%R).
(** [i] is the first position of a nearest element of [l] to [x]. *)
Definition first_nearest {A} (dist : A -> A -> R) (l : list A) (x : A) (i : nat) : Prop :=
  exists a, nth_error l i = Some a /\ (forall j b, nth_error l j = Some b -> (dist x a <= dist x b)%R) /\
    (forall j b, j < i -> nth_error l j = Some b -> (dist x a < dist x b)%R).
