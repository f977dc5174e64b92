(** Specification vocabulary for the quadratic solvers, in terms of real vectors only. *)
From Coq Require Import List Reals Lra Arith.
From Verif Require Import RVec.
Import ListNotations.
Local Open Scope R_scope.

Definition nonneg (x : list R) : Prop := Forall (fun t => 0 <= t) x.
Definition positive (x : list R) : Prop := Forall (fun t => 0 < t) x.

(** The feasible set documented for [frank_wolfe]: clb <= <c, x> <= cub, x >= 0. *)
Definition feasible (c : list R) (clb cub : R) (x : list R) : Prop :=
  length x = length c /\ nonneg x /\ clb <= dot c x <= cub.

(** [v] minimises the linear form [g] over the feasible set. *)
Definition linear_minimiser (c : list R) (clb cub : R) (g v : list R) : Prop :=
  feasible c clb cub v /\ forall w, feasible c clb cub w -> dot g v <= dot g w.

(** [z = (1 - t) x + t v], coordinate by coordinate. *)
Definition moved (t : R) (x v z : list R) : Prop :=
  length z = length x /\ length v = length x /\
  forall i, (i < length x)%nat -> nth i z 0 = (1 - t) * nth i x 0 + t * nth i v 0.

(** Matrix inequalities and equalities, row by row. *)
Definition satisfies_le (A : list (list R)) (b x : list R) : Prop := Forall2 (fun row v => dot row x <= v) A b.
Definition satisfies_eq (A : list (list R)) (b x : list R) : Prop := Forall2 (fun row v => dot row x = v) A b.

(** Quadratic objective 1/2 x'Qx + c'x (c = 0 when absent). *)
Definition objective (Q : list (list R)) (c : option (list R)) (x : list R) : R :=
  1 / 2 * dot x (matvec Q x) + match c with Some c => dot x c | None => 0 end.

(** Square, symmetric and positive semi-definite matrices. *)
Definition square (n : nat) (Q : list (list R)) : Prop := length Q = n /\ Forall (fun r => length r = n) Q.
Definition symmetric (Q : list (list R)) : Prop := forall i j, nth j (nth i Q []) 0 = nth i (nth j Q []) 0.
Definition psd (n : nat) (Q : list (list R)) : Prop := forall x, length x = n -> 0 <= dot x (matvec Q x).

(** [C] bounds the curvature (u - v)'Q(u - v) for u feasible and v feasible or the starting point. *)
Definition curvature_bound (Q : list (list R)) (c : list R) (clb cub : R) (x0 : list R) (C : R) : Prop :=
  forall u v, feasible c clb cub u -> (feasible c clb cub v \/ v = x0) ->
    dot (vsub u v) (matvec Q (vsub u v)) <= C.
