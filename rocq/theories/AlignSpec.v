(** What is expected of the graph alignment loss, and of gradients. *)
From Coq Require Import List ZArith Bool Arith Reals Permutation.
From Verif Require Import Np RVec LossModel.
Import ListNotations.
Local Open Scope nat_scope.

(** The same pairwise distances: one batch is the image of the other by a rigid motion. *)
Definition congruent (s s' : list (list R)) : Prop :=
  length s = length s' /\ forall i j, i < length s -> j < length s -> euclid (nth i s []) (nth j s []) = euclid (nth i s' []) (nth j s' []).

(** The affinity of two rows: the cosine of their angle, the Gaussian kernel of bandwidth 3/2, the distance. *)
Definition sq_dist (x y : list R) : R := vsum (map (fun p => (fst p - snd p) ^ 2)%R (combine x y)).
Definition sq_len (x : list R) : R := vsum (map (fun a => a ^ 2)%R x).
Definition cosine (x y : list R) : R := (dot x y / (sqrt (sq_len x) * sqrt (sq_len y)))%R.
Definition gaussian (x y : list R) : R := exp (- sq_dist x y / (2 * (3 / 2) ^ 2))%R.
(** The length of a row is not negligible. *)
Definition long (x : list R) : Prop := (1 / 10 ^ 12 <= sqrt (sq_len x))%R.
(** Laplacians of the graph with weights [A] on n nodes: minus the random walk, degrees minus weights, and the symmetrically normalised one. *)
Definition degree (n : nat) (A : nat -> nat -> R) (i : nat) : R := vsum (map (A i) (seq 0 n)).
Definition walk (n : nat) (A : nat -> nat -> R) (i j : nat) : R := (- (A i j / (degree n A i + 1 / 10 ^ 7)))%R.
Definition unnormalised (n : nat) (A : nat -> nat -> R) (i j : nat) : R := ((if i =? j then degree n A i else 0) - A i j)%R.
Definition normalised (n : nat) (A : nat -> nat -> R) (i j : nat) : R :=
  ((if i =? j then 1 else 0) - A i j / (sqrt (degree n A i + 1 / 10 ^ 7) * sqrt (degree n A j + 1 / 10 ^ 7)))%R.
(** The weights between the rows of a batch. *)
Definition weights_between (k : list R -> list R -> R) (s : list (list R)) (i j : nat) : R := k (nth i s []) (nth j s []).
Definition distance (u v : list R) : R := sqrt (sq_dist u v).

(** Facts about singular values: there are n of them, they only depend on the entries, and renumbering rows and columns in the same way does not change them. *)
Definition singular_values (sv : nat -> (nat -> nat -> R) -> list R) : Prop :=
  (forall n M, length (sv n M) = n) /\
  (forall n M M' sigma, Permutation sigma (seq 0 n) ->
     (forall i j, i < n -> j < n -> M' i j = M (nth i sigma 0) (nth j sigma 0)) -> sv n M' = sv n M).

(** [g] is the gradient of [l] at [z]. *)
Definition is_gradient (l : list R -> R) (z g : list R) : Prop :=
  length g = length z /\
  forall eps, (0 < eps)%R -> exists del, (0 < del)%R /\ forall h, length h = length z -> Forall (fun a => Rabs a < del)%R h ->
    (Rabs (l (vadd z h) - l z - dot g h) <= eps * vsum (map Rabs h))%R.
