(** Specification vocabulary for the deep losses (C67, C70, C71, C103-C105). *)
From Coq Require Import List ZArith Bool Arith Lia Reals Lra.
From Verif Require Import Np RVec.
Import ListNotations.
Local Open Scope R_scope.

(** All rows have length [d]. *)
Definition rect (d : nat) (M : list (list R)) : Prop := forall r, In r M -> length r = d.

(** Empirical covariance of two samples. *)
Definition covariance (u v : list R) : R := vsum (map2 (fun a b => (a - mean u) * (b - mean v)) u v) / (INR (length u) - 1).
Definition feature (M : list (list R)) (j : nat) : list R := map (fun r => nth j r 0) M.
(** Sum over all pairs of features. *)
Definition sum_pairs (d : nat) (f : nat -> nat -> R) : R := vsum (map (fun j => vsum (map (f j) (seq 0 d))) (seq 0 d)).

(** Average of a kernel over all pairs, and the (squared) maximum mean discrepancy. *)
Definition average {A B} (K : A -> B -> R) (xs : list A) (ys : list B) : R :=
  vsum (map (fun x => vsum (map (K x) ys)) xs) / (INR (length xs) * INR (length ys)).
Definition discrepancy_of {A} (K : A -> A -> R) (xs ys : list A) : R := average K xs xs + average K ys ys - 2 * average K xs ys.
(** Sum of kernels exp(-|x - y| / sigma). *)
Definition distance (x y : list R) : R := sqrt (vsum (map2 (fun a b => (a - b) * (a - b)) x y)).
Definition laplace_kernel (sigmas : list R) (x y : list R) : R := vsum (map (fun s => exp (- (distance x y / s))) sigmas).

(** Samples of a class. *)
Definition of_class (c : nat) (labels : list nat) (xs : list (list R)) : list (list R) :=
  map snd (filter (fun p => Nat.eqb (fst p) c) (combine labels xs)).
(** The contrastive domain discrepancy of Kang et al.: mean discrepancy within classes minus mean discrepancy between classes. *)
Definition contrastive (K : list R -> list R -> R) (m : nat) (ys : list nat) (xs : list (list R)) (yt : list nat) (xt : list (list R)) : R :=
  let D c1 c2 := discrepancy_of K (of_class c1 ys xs) (of_class c2 yt xt) in
  vsum (map (fun c => D c c) (seq 0 m)) / INR m
  - vsum (map (fun c => vsum (map (D c) (filter (fun c' => negb (Nat.eqb c c')) (seq 0 m)))) (seq 0 m)) / (INR m * (INR m - 1)).
Definition cosine_angle (u v : list R) : R := dot u v / (sqrt (dot u u) * sqrt (dot v v)).

(** Softmax probability. *)
Definition prob (row : list R) (k : nat) : R := exp (nth k row 0) / vsum (map exp row).
(** Probability after label smoothing. *)
Definition smoothed (s : R) (row : list R) (k : nat) : R := (1 - s) * prob row k + s / INR (length row).

(** Minimum class confusion (Jin et al.): certainty weights, weighted class confusion, mean share of the confusion outside the class. *)
Definition certainty (eps : R) (row : list R) : R :=
  1 + exp (vsum (map (fun k => prob row k * ln (prob row k + eps)) (seq 0 (length row)))).
Definition confusion (eps : R) (rows : list (list R)) (j k : nat) : R :=
  vsum (map (fun r => certainty eps r / mean (map (certainty eps) rows) * (prob r j * prob r k)) rows).

(** What cdd_loss computes instead of [contrastive]: sums of kernels over pairs, with the whole batches [S], [T] on one side of the
    sums within a class, and the cross sum divided by the square of the number of pairs. *)
Definition pair_sum {A} (K : A -> A -> R) (xs ys : list A) : R := vsum (map (fun x => vsum (map (K x) ys)) xs).
Definition cdd_pair (K : list R -> list R -> R) (S Sc T Tc : list (list R)) : R :=
  pair_sum K S Sc / (INR (length Sc) * INR (length Sc)) + pair_sum K T Tc / (INR (length Tc) * INR (length Tc))
  - 2 * (pair_sum K Sc Tc / ((INR (length Sc) * INR (length Tc)) * (INR (length Sc) * INR (length Tc)))).
(** Over the classes that [ok]: within the classes, and for the pairs c1 < c2. *)
Definition cdd_value (K : list R -> list R -> R) (n : nat) (ok : nat -> bool) (ys : list nat) (xs : list (list R)) (cluster : list R -> nat) (xt : list (list R)) : R :=
  let T := filter (fun x => ok (cluster x)) xt in
  let D c1 c2 := cdd_pair K xs (of_class c1 ys xs) T (filter (fun x => Nat.eqb (cluster x) c2) T) in
  vsum (map (fun c => D c c) (filter ok (seq 0 n))) / INR n
  - vsum (map (fun c1 => vsum (map (D c1) (filter (fun c2 => ok c2 && Nat.ltb c1 c2)%bool (seq 0 n)))) (filter ok (seq 0 n))) / (INR n * (INR n - 1)).
