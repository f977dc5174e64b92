(** Specification vocabulary for the callbacks, the spherical k-means, the domain classifier and SPA (C65, C66, C68, C69, C106-C110). *)
From Coq Require Import List ZArith Bool Arith Lia Reals Lra.
From Verif Require Import Np RVec.
Import ListNotations.
Local Open Scope nat_scope.

(** In how many batches does sample [i] occur? *)
Fixpoint visits {A} (i : nat) (batches : list (list nat * A)) : nat :=
  match batches with [] => 0 | (idx, _) :: r => (if in_dec Nat.eq_dec i idx then 1 else 0) + visits i r end.

(** Extended distances: None is +infinity. *)
Definition le_inf (a b : option R) : Prop := match a, b with _, None => True | None, Some _ => False | Some x, Some y => (x <= y)%R end.
(** [idx] are the positions of the [K] smallest entries of [row], ties broken in any way: what torch.topk of the opposite returns. *)
Definition is_topk (K : nat) (row : list (option R)) (idx : list nat) : Prop :=
  length idx = K /\ NoDup idx /\ (forall i, In i idx -> i < length row) /\
  forall i j, In i idx -> j < length row -> ~ In j idx -> le_inf (nth i row None) (nth j row None).

(** Sums of vectors, entry by entry. *)
Definition entry_sum (rows : list (list R)) (j : nat) : R := vsum (map (fun r => nth j r 0%R) rows).
Definition norm (x : list R) : R := sqrt (dot x x).
Definition unit (x : list R) : Prop := dot x x = 1%R.
